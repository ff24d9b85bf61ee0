(** * PropFloatIsect.v - property theorem C91: ray intersection in IEEE arithmetic *)

From Coq Require Import ZArith Reals List Bool Lra Lia.
From Flocq Require Import Core BinarySingleNaN.
From Verif Require Import Scalar Linalg Bundles RayIntersection Convert Spec SpecIsect SpecTri SpecFloatErr SpecFloatIsect
  RealBase VecLemmas IsectProofs FloatIsectProofs4 FloatIsectProofs5.
Import ListNotations.
Local Open Scope R_scope.

(** C91: rays in a format with [prec] bits (single and double precision are such),
    sums and pseudo-inverse in double precision.  [u] and [v] are the two unit
    roundoffs, [n] is the number of rays, [M] bounds the centers, the directions have
    lengths between [2^-E] and [2^E].  The SVD routine is off by [eta], and its two
    matrices are off by [kappa v].  Then the returned point is finite, and this far
    from the exact least squares point [x] of the same rays. *)
Section IEEE.
Variables (prec emax : Z) (Hp : Prec_gt_0 prec) (He : Prec_lt_emax prec emax).
Variables fsin fcos : binary_float prec emax -> binary_float prec emax.
Variables gsin gcos : f64 -> f64.
Local Hint Extern 0 (Ops (binary_float prec emax)) =>
  exact (B_ops prec emax Hp He fsin fcos) : typeclass_instances.
Local Hint Extern 0 (Ops (binary_float 53 1024)) => exact (f64_ops gsin gcos) : typeclass_instances.
Local Notation u := (bpow radix2 (- prec)).
Local Notation v := (bpow radix2 (- (53))).

Theorem C91_intersection_error {C} (E : Z) to64 from64 (M : R) (rays : list (Ray C (binary_float prec emax))) svd eta kappa lam x :
  (24 <= prec <= 53)%Z -> (emax <= 1024)%Z -> (0 <= E)%Z -> (2 * E + 34 <= emax)%Z ->
  exact_to64 to64 -> rounds_from64 from64 ->
  let n := INR (length rays) in
  1 <= M -> n * M <= bpow radix2 E -> n <= 2 ^ 40 -> (2 <= length rays)%nat -> Forall (ray_sized E M) rays ->
  0 <= eta -> 0 <= kappa <= 100 -> svd_near (2 * n) eta (kappa * v) svd ->
  let eta' := eta + 3 * n * (25 * u + (n + 1) * v) in
  cutoff + eta' < lam -> spread lam (map ray_real rays) ->
  (forall y, sum_sq_dist (map ray_real rays) x <= sum_sq_dist (map ray_real rays) y) ->
  let best := best_intersection_of_rays to64 from64 svd rays in
  best <> Some (Err SvdFailed) ->
  exists x', best = Some (Ok (mkPoints [x'])) /\ vec_finite x' /\
    vdist (vreal x') x <= (eta' * vlen x + n * M * ((110 * kappa + 700) * u + 6 * (n + 1) * v)) / (lam - eta').
Proof.
  intros P24 E1024 E0 E2 TX FR n M1 NM N40 L2 RS.
  exact (C91_lemma prec emax Hp He fsin fcos gsin gcos P24 E1024 E E0 E2 to64 from64 TX FR M rays M1 NM N40 L2 RS svd eta kappa lam x).
Qed.
End IEEE.
Print Assumptions C91_intersection_error.

(** C91: the conversions of the two scalar types meet the hypotheses. *)
Theorem C91_conversions :
  exact_to64 f32_to_f64 /\ rounds_from64 f64_to_f32 /\ exact_to64 (fun x : f64 => Some x) /\ rounds_from64 (fun x : f64 => x).
Proof. exact (conj f32_to_f64_exact (conj f64_to_f32_rounds (conj id_exact id_rounds))). Qed.
Print Assumptions C91_conversions.
Example C91_conversions_case : f64_to_f32 (@o_lit f64 (f64_ops (fun x => x) (fun x => x)) (2 ^ 30 + 33) 0) = @o_lit f32 (f32_ops (fun x => x) (fun x => x)) (2 ^ 30) 0 /\
  f64_to_f32 (@o_lit f64 (f64_ops (fun x => x) (fun x => x)) 1 200) = B754_infinity false.
Proof. split; apply B2SF_inj; vm_compute; reflexivity. Qed.

Section F64.
Variables fsin fcos : f64 -> f64.
Variables hsin hcos : f32 -> f32.
Local Hint Extern 0 (Ops f64) => exact (f64_ops fsin fcos) : typeclass_instances.
Local Hint Extern 0 (Ops f32) => exact (f32_ops hsin hcos) : typeclass_instances.

(** C91: double precision, up to 10 rays with centers up to 10000 and directions of
    length between 1/1000 and 1000000, spread out by at least 1/100. *)
Theorem C91_intersection_f64 {C} (rays : list (Ray C f64)) (svd : M33 f64 -> bool -> bool -> f64 -> nat -> option (SVD f64)) eta lam x :
  (2 <= length rays <= 10)%nat ->
  Forall (fun r => vec_sized 10000 (ray_center r) /\ vec_finite (ray_direction r) /\ 1 / 1000 <= vlen (vreal (ray_direction r)) <= 1000000) rays ->
  svd_near 20 eta (1 / 10 ^ 15) svd -> 0 <= eta <= lam / 3 ->
  1 / 100 <= lam -> spread lam (map ray_real rays) ->
  (forall y, sum_sq_dist (map ray_real rays) x <= sum_sq_dist (map ray_real rays) y) ->
  best_intersection_of_rays (fun x : f64 => Some x) (fun x : f64 => x) svd rays <> Some (Err SvdFailed) ->
  exists x', best_intersection_of_rays (fun x : f64 => Some x) (fun x : f64 => x) svd rays = Some (Ok (mkPoints [x'])) /\ vec_finite x' /\
    vdist (vreal x') x <= 4 / 10 ^ 6 + (1 / 10 ^ 10 + 2 * (eta / lam)) * vlen x.
Proof. exact (C91b_lemma fsin fcos rays svd eta lam x). Qed.

(** The lines y = 2, z = 0 and x = 5, z = 0: the matrix is diag(-1, -1, -2). *)
Local Notation lit m e := (@o_lit f64 (f64_ops fsin fcos) m%Z e%Z).
Local Notation lit32 m e := (@o_lit f32 (f32_ops hsin hcos) m%Z e%Z).
Local Ltac value := cbv -[IZR Rdiv Rinv Rmult Ropp]; first [lra|field].
Definition ex_rays64 : list (Ray WorldFrame f64) :=
  [mkRay (mkV3 (lit 0 0) (lit 2 0) (lit 0 0)) (mkV3 (lit 1 0) (lit 0 0) (lit 0 0));
   mkRay (mkV3 (lit 5 0) (lit 0 0) (lit 0 0)) (mkV3 (lit 0 0) (lit 4 0) (lit 0 0))].
Definition ex_rays32 : list (Ray WorldFrame f32) :=
  [mkRay (mkV3 (lit32 0 0) (lit32 2 0) (lit32 0 0)) (mkV3 (lit32 1 0) (lit32 0 0) (lit32 0 0));
   mkRay (mkV3 (lit32 5 0) (lit32 0 0) (lit32 0 0)) (mkV3 (lit32 0 0) (lit32 4 0) (lit32 0 0))].
Definition ex_raysR : list (Ray WorldFrame R) :=
  [mkRay (mkV3 0 2 0) (mkV3 1 0 0); mkRay (mkV3 5 0 0) (mkV3 0 4 0)].
Definition ex_diag (a b c : f64) : M33 f64 :=
  mkM33 a (lit 0 0) (lit 0 0) (lit 0 0) b (lit 0 0) (lit 0 0) (lit 0 0) c.
Definition ex_same (m m' : M33 f64) : bool :=
  Beqb (m00 m) (m00 m') && Beqb (m01 m) (m01 m') && Beqb (m02 m) (m02 m') &&
  Beqb (m10 m) (m10 m') && Beqb (m11 m) (m11 m') && Beqb (m12 m) (m12 m') &&
  Beqb (m20 m) (m20 m') && Beqb (m21 m) (m21 m') && Beqb (m22 m) (m22 m').
Definition ex_svd (m : M33 f64) (_ _ : bool) (_ : f64) (_ : nat) : option (SVD f64) :=
  if ex_same m (ex_diag (lit (-1) 0) (lit (-1) 0) (lit (-2) 0))
  then Some (mkSVD (Some (ex_diag (lit (-1) 0) (lit (-1) 0) (lit (-1) 0))) (mkV3 (lit 1 0) (lit 1 0) (lit 2 0))
                   (Some (ex_diag (lit 1 0) (lit 1 0) (lit 1 0))))
  else None.
Example ex_rays64_real : map ray_real ex_rays64 = ex_raysR.
Proof. unfold ex_rays64, ex_raysR, ray_real, vreal. cbn [map ray_center ray_direction vx vy vz]. repeat f_equal; value. Qed.
Example ex_rays32_real : map ray_real ex_rays32 = ex_raysR.
Proof. unfold ex_rays32, ex_raysR, ray_real, vreal. cbn [map ray_center ray_direction vx vy vz]. repeat f_equal; value. Qed.
Example ex_svd_near B : svd_near B 0 0 ex_svd.
Proof.
  intros m eps k d Sz E. unfold ex_svd in E. destruct (ex_same m _) eqn:Q in E; [|discriminate].
  assert (Ed : mreal m = mkM33 (-1) 0 0 0 (-1) 0 0 0 (-2)).
  { unfold ex_same in Q. rewrite !andb_true_iff in Q.
    assert (V : forall (a b : f64) r, is_finite a = true -> is_finite b = true -> B2R b = r -> Beqb a b = true -> B2R a = r).
    { intros a b r Fa Fb <- Eq. rewrite Beqb_correct in Eq by assumption. revert Eq. case Req_bool_spec; [auto|discriminate]. }
    unfold mat_sized, sized in Sz. unfold mreal.
    apply M33_eq; cbn [m00 m01 m02 m10 m11 m12 m20 m21 m22]; (eapply V; [apply Sz| |  |apply Q]; [reflexivity|value]). }
  injection E as <-. eexists _, _, (mscl (-1) mI), mI. repeat (split; [reflexivity|]). cbn [svd_s vx vy vz].
  rewrite Ed.
  assert (N : forall (y : f64) r, is_finite y = true -> B2R y = r -> near 0 y r).
  { intros y r Fy <-. split; [exact Fy|]. rewrite Rminus_diag_eq, Rabs_R0 by reflexivity. lra. }
  assert (Vs : vreal (mkV3 (lit 1 0) (lit 1 0) (lit 2 0)) = mkV3 1 1 2) by (unfold vreal; cbn [vx vy vz]; f_equal; value).
  split; [split; apply M33_eq; ru_spec; ring|]. split; [split; apply M33_eq; ru_spec; ring|].
  split; [repeat split; apply N; first [reflexivity|ru_spec; value]|].
  split; [repeat split; apply N; first [reflexivity|ru_spec; value]|].
  split; [now repeat split|].
  assert (P : forall (y : f64) r, B2R y = r -> 0 <= r -> 0 <= B2R y) by (intros y r -> ?; assumption).
  split; [apply (P _ 1); [value|lra]|]. split; [apply (P _ 1); [value|lra]|]. split; [apply (P _ 2); [value|lra]|].
  intros w. match goal with |- context [mdiag ?s] => replace s with (mkV3 1 1 2) by (symmetry; exact Vs) end.
  apply Req_le. replace (mv _ w) with (mv (mkM33 (-1) 0 0 0 (-1) 0 0 0 (-2)) w).
  - unfold vdist. rewrite Rmult_0_l. unfold vlen. replace (vdot _ _) with 0 by (destruct w; ru_spec; ring). apply sqrt_0.
  - destruct w. unfold mdiag. apply V3_eq; ru_spec; ring.
Qed.
Example ex_raysR_spread : spread 1 ex_raysR.
Proof.
  intros w W. assert (Q : vdot w w = 1) by (rewrite <- vlen_sq, W; ring).
  unfold sum_sq_sin, rsum, ex_raysR, line_dist2. cbn [map fold_right ray_direction]. destruct w as [a b c]. clear W. ru_spec.
  pose proof (Rle_0_sqr c). unfold Rsqr in *. match goal with |- _ <= ?r => replace r with (b * b + c * c + (a * a + c * c)) by field end. lra.
Qed.
Example ex_raysR_min y : sum_sq_dist ex_raysR (mkV3 5 2 0) <= sum_sq_dist ex_raysR y.
Proof.
  apply Rle_trans with 0.
  - right. unfold sum_sq_dist, rsum, line_dist2, ex_raysR. cbn [map fold_right ray_center ray_direction]. ru_spec. field.
  - apply sum_sq_dist_nonneg. repeat apply Forall_cons; try apply Forall_nil; cbn [ray_direction]; intros Q; apply V3_inv in Q; ru_spec; lra.
Qed.
Example ex_len : vlen (mkV3 5 2 0) <= 6.
Proof. apply Rsqr_incr_0_var; [|lra]. unfold Rsqr. rewrite vlen_sq. ru_spec. lra. Qed.
Example ex_dir1 : vlen (mkV3 1 0 0) = 1.
Proof. apply vlen_1. ru_spec. ring. Qed.
Example ex_dir2 : vlen (mkV3 0 4 0) = 4.
Proof. unfold vlen. replace (vdot _ _) with (4 * 4) by (ru_spec; ring). apply sqrt_square. lra. Qed.
Local Ltac size v := split; [reflexivity|];
  match goal with |- _ <= Rabs ?x <= _ => replace x with v; [rewrite Rabs_pos_eq; lra|] end;
  cbv -[IZR Rdiv Rinv Rmult]; first [lra|field].
Definition ex_ok {A} (r : option (result A)) : bool := match r with Some (Ok _) => true | _ => false end.
Example ex_ok_not_failed {A} (r : option (result A)) e : ex_ok r = true -> r <> Some (Err e).
Proof. destruct r as [[|]|]; discriminate. Qed.
Example C91_case64 : exists x, best_intersection_of_rays (fun x : f64 => Some x) (fun x : f64 => x) ex_svd ex_rays64 = Some (Ok (mkPoints [x])) /\ vec_finite x /\
  vdist (vreal x) (mkV3 5 2 0) <= 2 / 10 ^ 5.
Proof.
  cut (exists x, best_intersection_of_rays (fun x : f64 => Some x) (fun x : f64 => x) ex_svd ex_rays64 = Some (Ok (mkPoints [x])) /\ vec_finite x /\
    vdist (vreal x) (mkV3 5 2 0) <= 4 / 10 ^ 6 + (1 / 10 ^ 10 + 2 * (1 / 10 ^ 6 / 1)) * vlen (mkV3 5 2 0)).
  { intros (x & Q & F & D). exists x. split; [exact Q|]. split; [exact F|]. pose proof ex_len. lra. }
  apply C91_intersection_f64 with (lam := 1).
  - cbn. lia.
  - assert (D1 : vreal (mkV3 (lit 1 0) (lit 0 0) (lit 0 0)) = mkV3 1 0 0) by (unfold vreal; cbn [vx vy vz]; f_equal; value).
    assert (D2 : vreal (mkV3 (lit 0 0) (lit 4 0) (lit 0 0)) = mkV3 0 4 0) by (unfold vreal; cbn [vx vy vz]; f_equal; value).
    repeat apply Forall_cons; try apply Forall_nil; cbn [ray_center ray_direction].
    + split; [split; [size 0|split; [size 2|size 0]]|]. split; [now repeat split|]. rewrite D1, ex_dir1. lra.
    + split; [split; [size 5|split; [size 0|size 0]]|]. split; [now repeat split|]. rewrite D2, ex_dir2. lra.
  - intros m eps k d Sz Q. destruct (ex_svd_near 20 m eps k d Sz Q) as (fu & fv & U & V & ? & ? & ? & ? & NU & NV & ? & ? & ? & ? & N).
    assert (W : forall (m : M33 f64) a, mat_near 0 m a -> mat_near (1 / 10 ^ 15) m a).
    { intros m' a H'. unfold mat_near, near in *. repeat match goal with H : _ /\ _ |- _ => destruct H end. repeat split; try assumption; lra. }
    exists fu, fv, U, V. repeat (split; [first [assumption|now apply W]|]). intros w. eapply Rle_trans; [apply N|].
    apply Rmult_le_compat_r; [apply sqrt_pos|lra].
  - lra.
  - lra.
  - rewrite ex_rays64_real. exact ex_raysR_spread.
  - rewrite ex_rays64_real. exact ex_raysR_min.
  - apply ex_ok_not_failed. vm_compute. reflexivity.
Qed.
Example C91_case32 : exists x, best_intersection_of_rays f32_to_f64 f64_to_f32 ex_svd ex_rays32 = Some (Ok (mkPoints [x])) /\ vec_finite x /\
  vdist (vreal x) (mkV3 5 2 0) <= 1 / 1000.
Proof.
  assert (u24 : bpow radix2 (- (24)) = / 16777216) by (simpl; lra).
  assert (u53 : bpow radix2 (- (53)) = / 9007199254740992) by (simpl; lra).
  destruct (@C91_intersection_error 24 128 f32_prec f32_emax hsin hcos fsin fcos WorldFrame 20 f32_to_f64 f64_to_f32 10 ex_rays32 ex_svd 0 0 1 (mkV3 5 2 0))
    as (x & Q & F & D); [lia|lia|lia|lia|apply C91_conversions|apply C91_conversions|lra|cbn; lra|cbn; lra|cbn; lia| |lra|lra| | | | | |].
  - assert (D1 : vreal (mkV3 (lit32 1 0) (lit32 0 0) (lit32 0 0)) = mkV3 1 0 0) by (unfold vreal; cbn [vx vy vz]; f_equal; value).
    assert (D2 : vreal (mkV3 (lit32 0 0) (lit32 4 0) (lit32 0 0)) = mkV3 0 4 0) by (unfold vreal; cbn [vx vy vz]; f_equal; value).
    assert (B : bpow radix2 (- (20)) <= 1 /\ 4 <= bpow radix2 20) by (simpl; lra).
    repeat apply Forall_cons; try apply Forall_nil; unfold ray_sized; cbn [ray_center ray_direction].
    + split; [split; [size 0|split; [size 2|size 0]]|]. split; [now repeat split|]. rewrite D1, ex_dir1. lra.
    + split; [split; [size 5|split; [size 0|size 0]]|]. split; [now repeat split|]. rewrite D2, ex_dir2. lra.
  - rewrite Rmult_0_l. apply ex_svd_near.
  - rewrite u24, u53. cbn. pose proof cutoff_lt. lra.
  - rewrite ex_rays32_real. exact ex_raysR_spread.
  - rewrite ex_rays32_real. exact ex_raysR_min.
  - apply ex_ok_not_failed. vm_compute. reflexivity.
  - exists x. split; [exact Q|]. split; [exact F|]. eapply Rle_trans; [exact D|]. rewrite u24, u53.
    pose proof ex_len as L. 
    match goal with |- context [INR ?k] => replace (INR k) with 2 by (cbn; lra) end.
    assert (X : 0 <= vlen (mkV3 5 2 0)) by apply sqrt_pos. set (l := vlen (mkV3 5 2 0)) in *.
    match goal with |- ?a / ?b <= _ => set (p := a); set (q := b) end.
    assert (Q1 : 999 / 1000 <= q) by (unfold q; lra). assert (P1 : p <= 9 / 10000) by (unfold p; lra).
    apply (Rmult_le_reg_r q); [lra|]. unfold Rdiv at 1. rewrite Rmult_assoc, Rinv_l by lra. lra.
Qed.
End F64.
Print Assumptions C91_intersection_f64.
