(** * PropFloatTri.v - property theorems C102-C104: rays of pixels and triangulation in IEEE arithmetic *)

From Coq Require Import ZArith Reals List Bool Lra Lia.
From Flocq Require Import Core BinarySingleNaN.
From Verif Require Import Scalar Linalg Bundles Extrinsics Perspective Orthographic Camera RayIntersection Spec SpecGeom SpecIsect SpecTri
  SpecFloatErr SpecFloatIsect SpecFloatTri RealBase VecLemmas TriProofs FloatRound FloatErrProofs FloatErrProofs2 FloatApprox FloatWorldProofs FloatIsectProofs5 FloatTriProofs2 FloatTriProofs3.
Import ListNotations.
Local Open Scope R_scope.

(** Any IEEE format; [w] is at least the unit roundoff, and the quaternions are within
    [8 w] of unit quaternions. *)
Section IEEE.
Variables (prec emax : Z) (Hp : Prec_gt_0 prec) (He : Prec_lt_emax prec emax).
Variables fsin fcos : binary_float prec emax -> binary_float prec emax.
Local Notation F := (binary_float prec emax).
Local Hint Extern 0 (Ops (binary_float prec emax)) =>
  exact (B_ops prec emax Hp He fsin fcos) : typeclass_instances.
Local Notation u := (bpow radix2 (- prec)).
Local Notation big := (bpow radix2 emax).

(** C102: the reported world rays, for a camera with quaternion close to [q] and center [c].
    Perspective: the reported center is close to [c]; each reported direction is close to
    the rotated direction of a point whose exact pixel is close to the given pixel.
    Orthographic: the reported direction is close to the viewing direction; each reported
    center is close to a point of the image plane whose exact pixel is close to the given one. *)
Theorem C102_ray_error w (qh : Quat F) q c M P ps : u <= w <= / 2048 -> (17 <= emax)%Z ->
  unit_quat q -> quat_near (8 * w) qh q -> vec_sized M c -> 1 <= M -> 1 <= P -> 512 * P * M < big ->
  Forall (fun p => sized 0 P (px p) /\ sized 0 P (py p)) ps ->
  (forall k : PerspectiveParams F, persp_sized P k -> sized 0 (Rabs (B2R (pp_fy k))) (pp_skew k) ->
     5 * P <= M * Rabs (B2R (pp_fx k)) -> 5 * P <= M * Rabs (B2R (pp_fy k)) ->
     exists center dirs, pixel_to_world (camera_new (perspective_from k) (from_rotation_and_camcenter qh c)) (mkPixels ps)
         = Some (mkRayBundle dirs (mkSO center)) /\
       vec_near (1461 * w * M) center (vreal c) /\
       Forall2 (fun p d => exists y, vz y = 1 /\ pix_near (13.2 * w * P) p (pinhole k y) /\
         vec_near (302 * w * M) d (mv (mtr (rotm q)) y)) ps dirs) /\
  (forall k : OrthographicParams F, ortho_sized P k ->
     5 * P <= M * Rabs (B2R (op_sx k)) -> 5 * P <= M * Rabs (B2R (op_sy k)) ->
     exists centers d, pixel_to_world (camera_new (orthographic_from k) (from_rotation_and_camcenter qh c)) (mkPixels ps)
         = Some (mkRayBundle centers (mkSD d)) /\
       vec_near (302 * w) d (mv (mtr (rotm q)) (mkV3 0 0 1)) /\
       Forall2 (fun p x => exists y, vz y = 0 /\ pix_near (4.1 * w * P) p (parallel_pixel k y) /\
         vec_near (1461 * w * M) x (to_world q (vreal c) y)) ps centers).
Proof. intros (UW & W11) E17. exact (C102_lemma prec emax Hp He fsin fcos w UW W11 E17 qh q c M P ps). Qed.

(** C103: a camera which reports [X] at a pixel off by at most [eps] gives a ray which
    passes [X] at a distance of at most [2600 w M + Z s], and which is off from the true
    line of sight by an angle with a sine of at most [s]. *)
Theorem C103_ray_passes_point w M P f Z eps X (r : Ray WorldFrame F) t : u <= w <= / 2048 -> (17 <= emax)%Z ->
  1 <= M -> 1 <= P -> 512 * P * M < big -> 0 < f -> 5 * P <= M * f -> 1 <= Z -> 0 <= eps ->
  let s := 3.5 * ((eps + 13.2 * w * P) / f) + 530 * w * M in
  s < 1 / 2 ->
  seen_persp w M P f Z eps X r t \/ seen_ortho w M P f Z eps X r t ->
  line_dist2 X (vreal (ray_center r)) (vreal (ray_direction r)) <= (2600 * w * M + Z * s)² /\
  line_dist2 (ray_direction t) vO (vreal (ray_direction r)) <= (s * vlen (ray_direction t))².
Proof. intros (UW & W11) E17. exact (C103_lemma prec emax Hp He fsin fcos w UW W11 E17 M P f Z eps X r t). Qed.

(** C104: the whole way from pixels to the intersection of their rays: [n] cameras report
    [X] at pixels off by at most [eps]; the true lines of sight are spread by [lam].  The
    returned point is finite and this far from [X]. *)
Variables gsin gcos : f64 -> f64.
Local Hint Extern 0 (Ops (binary_float 53 1024)) => exact (f64_ops gsin gcos) : typeclass_instances.
Local Notation v := (bpow radix2 (- (53))).
Theorem C104_triangulation_error (E : Z) to64 from64 w M P f Z eps X (rays : list (Ray WorldFrame F)) truth svd eta kappa lam :
  (24 <= prec <= 53)%Z -> (emax <= 1024)%Z -> (0 <= E)%Z -> (2 * E + 34 <= emax)%Z ->
  exact_to64 to64 -> rounds_from64 from64 -> u <= w <= / 2048 ->
  1 <= M -> 1 <= P -> 512 * P * M < big -> 0 < f -> 5 * P <= M * f -> 1 <= Z -> 0 <= eps ->
  let n := INR (length rays) in
  n * (4 * M) <= bpow radix2 E -> n <= 2 ^ 40 -> (2 <= length rays)%nat ->
  Forall2 (fun r t => seen_persp w M P f Z eps X r t \/ seen_ortho w M P f Z eps X r t) rays truth -> spread lam truth ->
  0 <= eta -> 0 <= kappa <= 100 -> svd_near (2 * n) eta (kappa * v) svd ->
  let s := 3.5 * ((eps + 13.2 * w * P) / f) + 530 * w * M in
  let mu := lam - 2 * s * n in
  let eta' := eta + 3 * n * (25 * u + (n + 1) * v) in
  cutoff + eta' < mu ->
  let best := best_intersection_of_rays to64 from64 svd rays in
  best <> Some (Err SvdFailed) ->
  let e := (2600 * w * M + Z * s) * sqrt (n / mu) in
  exists x', best = Some (Ok (mkPoints [x'])) /\ vec_finite x' /\
    vdist (vreal x') X <= e + (eta' * (vlen X + e) + n * (4 * M) * ((110 * kappa + 700) * u + 6 * (n + 1) * v)) / (mu - eta').
Proof. exact (C104_lemma prec emax Hp He fsin fcos gsin gcos E to64 from64 w M P f Z eps X rays truth svd eta kappa lam). Qed.
End IEEE.
Print Assumptions C102_ray_error.
Print Assumptions C103_ray_passes_point.
Print Assumptions C104_triangulation_error.

Section F64.
Variables fsin fcos : f64 -> f64.
Local Hint Extern 0 (Ops f64) => exact (f64_ops fsin fcos) : typeclass_instances.
Local Hint Extern 0 (Ops (binary_float 53 1024)) => exact (f64_ops fsin fcos) : typeclass_instances.
Local Notation u := (bpow radix2 (- (53))).

(** C104: double precision, up to 10 cameras with centers up to 100, focal lengths (scales)
    from 500, parameters and pixels up to 10000; [X] at depths of at most [Z]; pixels off
    by at most 1/10; lines of sight spread by at least 1/5. *)
Theorem C104_triangulation_f64 Z eps X (rays : list (Ray WorldFrame f64)) truth svd eta lam :
  1 <= Z -> 0 <= eps <= 1 / 10 -> (2 <= length rays <= 10)%nat ->
  Forall2 (fun r t => seen_persp u 100 10000 500 Z eps X r t \/ seen_ortho u 100 10000 500 Z eps X r t) rays truth ->
  1 / 5 <= lam -> spread lam truth -> svd_near 20 eta (1 / 10 ^ 15) svd -> 0 <= eta <= 1 / 100 ->
  best_intersection_of_rays (fun x : f64 => Some x) (fun x : f64 => x) svd rays <> Some (Err SvdFailed) ->
  exists x', best_intersection_of_rays (fun x : f64 => Some x) (fun x : f64 => x) svd rays = Some (Ok (mkPoints [x'])) /\ vec_finite x' /\
    vdist (vreal x') X <= 6 / 100 * Z * eps + 1 / 10 ^ 8 * Z + (1 / 10 ^ 11 + 6 * eta) * vlen X.
Proof. exact (C104b_lemma fsin fcos Z eps X rays truth svd eta lam). Qed.

(** C104: projected by the program into several cameras and triangulated by the program
    from these pixels, a point comes back within 1/100000 and what the decomposition is off. *)
Local Notation cam a := (camera_new (perspective_from (fc_k a)) (from_rotation_and_camcenter (fc_qh a) (fc_c a))).
Theorem C104_own_pixels_f64 X (cams : list (fcam 53 1024)) lam : (2 <= length cams <= 10)%nat -> vec_sized 100 X ->
  Forall (good_cam X) cams -> 1 / 5 <= lam ->
  spread lam (map (fun a => mkRay (Coords := WorldFrame) (vreal (fc_c a)) (vsub (vreal X) (vreal (fc_c a)))) cams) ->
  exists rays,
    Forall2 (fun a r => (p <- world_to_pixel (cam a) (mkPoints [X]) ;; rb <- pixel_to_world (cam a) p ;;
                         @to_single_ray f64 _ _ SharedOrigin_Bundle rb) = Some r) cams rays /\
    forall svd eta, svd_near 20 eta (1 / 10 ^ 15) svd -> 0 <= eta <= 1 / 100 ->
    best_intersection_of_rays (fun x : f64 => Some x) (fun x : f64 => x) svd rays <> Some (Err SvdFailed) ->
    exists x', best_intersection_of_rays (fun x : f64 => Some x) (fun x : f64 => x) svd rays = Some (Ok (mkPoints [x'])) /\ vec_finite x' /\
      vdist (vreal x') (vreal X) <= 1 / 10 ^ 5 + 6 * eta * vlen (vreal X).
Proof. exact (C104c_lemma fsin fcos X cams lam). Qed.

(** ** Cases *)
Local Notation lit m e := (@o_lit f64 (f64_ops fsin fcos) m%Z e%Z).
Local Ltac val := cbv -[IZR Rdiv Rinv Rmult Ropp]; first [lra|field].
Local Ltac size v := split; [reflexivity|];
  match goal with |- _ <= Rabs ?x <= _ => let H := fresh in assert (H : x = v) by val; rewrite H end;
  first [rewrite Rabs_pos_eq; lra|rewrite Rabs_left; lra].
(** An exact decomposition of diagonal matrices with no positive entry. *)
Definition ex_md (a b c : f64) : M33 f64 := mkM33 a (lit 0 0) (lit 0 0) (lit 0 0) b (lit 0 0) (lit 0 0) (lit 0 0) c.
Definition ex_zero (x : f64) : bool := Beqb x (lit 0 0).
Definition ex_dsvd (m : M33 f64) (_ _ : bool) (_ : f64) (_ : nat) : option (SVD f64) :=
  if ex_zero (m01 m) && ex_zero (m02 m) && ex_zero (m10 m) && ex_zero (m12 m) && ex_zero (m20 m) && ex_zero (m21 m) &&
     Bleb (m00 m) (lit 0 0) && Bleb (m11 m) (lit 0 0) && Bleb (m22 m) (lit 0 0)
  then Some (mkSVD (Some (ex_md (lit (-1) 0) (lit (-1) 0) (lit (-1) 0))) (mkV3 (o_neg (m00 m)) (o_neg (m11 m)) (o_neg (m22 m)))
                   (Some (ex_md (lit 1 0) (lit 1 0) (lit 1 0))))
  else None.
Example ex_dsvd_near B e1 e2 : 0 <= e1 -> 0 <= e2 -> svd_near B e1 e2 ex_dsvd.
Proof.
  intros E1 E2 m eps k d Sz E. unfold ex_dsvd in E.
  destruct (_ && _) eqn:Q in E; [|discriminate]. rewrite !andb_true_iff in Q. destruct Q as ((((((((Q1 & Q2) & Q3) & Q4) & Q5) & Q6) & Q7) & Q8) & Q9).
  assert (Z : B2R (lit 0 0) = 0) by val.
  assert (V : forall a : f64, is_finite a = true -> ex_zero a = true -> B2R a = 0).
  { intros a Fa Eq. unfold ex_zero in Eq. rewrite Beqb_correct in Eq by (assumption || reflexivity). rewrite Z in Eq. revert Eq. case Req_bool_spec; [auto|discriminate]. }
  assert (L : forall a : f64, is_finite a = true -> Bleb a (lit 0 0) = true -> B2R a <= 0).
  { intros a Fa Eq. rewrite Bleb_correct in Eq by (assumption || reflexivity). rewrite Z in Eq. revert Eq. case Rle_bool_spec; [auto|discriminate]. }
  unfold mat_sized, sized in Sz. destruct Sz as ((F0 & _) & (F1 & _) & (F2 & _) & (F3 & _) & (F4 & _) & (F5 & _) & (F6 & _) & (F7 & _) & (F8 & _)).
  assert (Ed : mreal m = mkM33 (B2R (m00 m)) 0 0 0 (B2R (m11 m)) 0 0 0 (B2R (m22 m))).
  { unfold mreal. f_equal; apply V; assumption. }
  apply L in Q7, Q8, Q9; try assumption.
  injection E as <-. eexists _, _, (mscl (-1) mI), mI. repeat (split; [reflexivity|]). cbn [svd_s vx vy vz].
  assert (N : forall (y : f64) r, is_finite y = true -> B2R y = r -> near e2 y r).
  { intros y r Fy <-. split; [exact Fy|]. rewrite Rminus_diag_eq, Rabs_R0 by reflexivity. exact E2. }
  assert (Ng : forall y : f64, B2R (o_neg y) = - B2R y) by (intros y; apply B2R_Bopp).
  assert (Ng' : forall y : f64, B2R y <= 0 -> 0 <= B2R (o_neg y)) by (intros y Hy; rewrite Ng; lra).
  assert (Fg : forall y : f64, is_finite y = true -> is_finite (o_neg y) = true) by (intros y Fy; unfold o_neg; cbn; now rewrite is_finite_Bopp).
  assert (Vs : vreal (mkV3 (o_neg (m00 m)) (o_neg (m11 m)) (o_neg (m22 m))) = mkV3 (- B2R (m00 m)) (- B2R (m11 m)) (- B2R (m22 m)))
    by (unfold vreal; cbn [vx vy vz]; f_equal; apply Ng).
  split; [split; apply M33_eq; ru_spec; ring|]. split; [split; apply M33_eq; ru_spec; ring|].
  split; [repeat split; apply N; first [reflexivity|ru_spec; val]|].
  split; [repeat split; apply N; first [reflexivity|ru_spec; val]|].
  split; [split; [|split]; now apply Fg|].
  split; [exact (Ng' _ Q7)|].
  split; [exact (Ng' _ Q8)|].
  split; [exact (Ng' _ Q9)|].
  intros w. rewrite Ed. match goal with |- context [mdiag ?s] => replace s with (mkV3 (- B2R (m00 m)) (- B2R (m11 m)) (- B2R (m22 m))) by (symmetry; exact Vs) end.
  apply Rle_trans with 0; [|apply Rmult_le_pos; [exact E1|apply sqrt_pos]].
  apply Req_le. generalize (B2R (m00 m)) (B2R (m11 m)) (B2R (m22 m)). intros a b c.
  unfold vdist, vlen. replace (vdot _ _) with 0; [apply sqrt_0|]. destruct w. unfold mdiag. ru_spec. ring.
Qed.

(** Two cameras without rotation, at the origin and at (10,0,0), and the point (5,0,5). *)
Definition ex_qi : Quat f64 := mkQuat (lit 0 0) (lit 0 0) (lit 0 0) (lit 1 0).
Definition ex_kt : PerspectiveParams f64 := mkPP (lit 512 0) (lit 512 0) (lit 0 0) (lit 0 0) (lit 0 0).
Definition ex_fc1 : fcam 53 1024 := mkFcam 53 1024 ex_kt ex_qi (mkQuat 0 0 0 1) (mkV3 (lit 0 0) (lit 0 0) (lit 0 0)).
Definition ex_fc2 : fcam 53 1024 := mkFcam 53 1024 ex_kt ex_qi (mkQuat 0 0 0 1) (mkV3 (lit 10 0) (lit 0 0) (lit 0 0)).
Definition ex_X : V3 f64 := mkV3 (lit 5 0) (lit 0 0) (lit 5 0).
Example ex_qi_near : quat_near (8 * u) ex_qi (mkQuat 0 0 0 1).
Proof.
  change u with (/ 9007199254740992). unfold quat_near, near, ex_qi. cbn [qi qj qk qw].
  assert (A : B2R (lit 1 0) = 1) by val. assert (Z : B2R (lit 0 0) = 0) by val.
  rewrite A, Z. repeat split; try reflexivity; apply Rabs_le; lra.
Qed.
Example ex_good : Forall (good_cam ex_X) [ex_fc1; ex_fc2].
Proof.
  assert (Z : B2R (lit 0 0) = 0) by val. assert (A : B2R (lit 512 0) = 512) by val.
  assert (V1 : vreal ex_X = mkV3 5 0 5) by (unfold vreal, ex_X; f_equal; val).
  assert (V2 : vreal (mkV3 (lit 0 0) (lit 0 0) (lit 0 0)) = mkV3 0 0 0) by (unfold vreal; f_equal; val).
  assert (V3 : vreal (mkV3 (lit 10 0) (lit 0 0) (lit 0 0)) = mkV3 10 0 0) by (unfold vreal; f_equal; val).
  assert (U : unit_quat (mkQuat 0 0 0 1)) by (unfold unit_quat, qnorm2; cbn; lra).
  assert (T1 : to_camera (mkQuat 0 0 0 1) (mkV3 0 0 0) (mkV3 5 0 5) = mkV3 5 0 5) by (apply V3_eq; ru_spec; lra).
  assert (T2 : to_camera (mkQuat 0 0 0 1) (mkV3 10 0 0) (mkV3 5 0 5) = mkV3 (-5) 0 5) by (apply V3_eq; ru_spec; lra).
  repeat apply Forall_cons; try apply Forall_nil; unfold good_cam, ex_fc1, ex_fc2; cbn [fc_k fc_qh fc_q fc_c];
    (split; [exact U|]); (split; [exact ex_qi_near|]); rewrite ?V1, ?V2, ?V3; unfold depth; rewrite ?T1, ?T2.
  - split; [split; [size 0|split; [size 0|size 0]]|]. split; [size 512|]. split; [size 512|]. split; [size 0|]. split; [size 0|]. split; [size 0|].
    split; [cbn [vz]; lra|]. unfold pinhole, ex_kt. cbn [pp_fx pp_fy pp_skew pp_cx pp_cy vx vy vz]. rewrite A, Z. split; cbn [px py].
    + replace ((512 * 5 + 0 * 0) / 5 + 0) with 512 by field. rewrite Rabs_pos_eq; lra.
    + replace (512 * 0 / 5 + 0) with 0 by field. rewrite Rabs_R0; lra.
  - split; [split; [size 10|split; [size 0|size 0]]|]. split; [size 512|]. split; [size 512|]. split; [size 0|]. split; [size 0|]. split; [size 0|].
    split; [cbn [vz]; lra|]. unfold pinhole, ex_kt. cbn [pp_fx pp_fy pp_skew pp_cx pp_cy vx vy vz]. rewrite A, Z. split; cbn [px py].
    + replace ((512 * -5 + 0 * 0) / 5 + 0) with (-512) by field. rewrite Rabs_left; lra.
    + replace (512 * 0 / 5 + 0) with 0 by field. rewrite Rabs_R0; lra.
Qed.
Definition ex_ok {A} (r : option (result A)) : bool := match r with Some (Ok _) => true | _ => false end.
Example ex_not_failed o1 o2 (r1 r2 : Ray WorldFrame f64) : o1 = Some r1 -> o2 = Some r2 ->
  ex_ok (match o1, o2 with Some r1, Some r2 => best_intersection_of_rays (fun x : f64 => Some x) (fun x : f64 => x) ex_dsvd [r1; r2] | _, _ => None end) = true ->
  best_intersection_of_rays (fun x : f64 => Some x) (fun x : f64 => x) ex_dsvd [r1; r2] <> Some (Err SvdFailed).
Proof. intros -> -> G Q. rewrite Q in G. discriminate. Qed.
Example C104_case : exists rays x,
  Forall2 (fun a r => (p <- world_to_pixel (cam a) (mkPoints [ex_X]) ;; rb <- pixel_to_world (cam a) p ;;
                       @to_single_ray f64 _ _ SharedOrigin_Bundle rb) = Some r) [ex_fc1; ex_fc2] rays /\
  best_intersection_of_rays (fun x : f64 => Some x) (fun x : f64 => x) ex_dsvd rays = Some (Ok (mkPoints [x])) /\
  vdist (vreal x) (mkV3 5 0 5) <= 1 / 10 ^ 5 + 6 * (1 / 10 ^ 6) * vlen (mkV3 5 0 5).
Proof.
  assert (V1 : vreal ex_X = mkV3 5 0 5) by (unfold vreal, ex_X; f_equal; val).
  assert (V2 : vreal (fc_c ex_fc1) = mkV3 0 0 0) by (unfold vreal, ex_fc1; cbn [fc_c]; f_equal; val).
  assert (V3 : vreal (fc_c ex_fc2) = mkV3 10 0 0) by (unfold vreal, ex_fc2; cbn [fc_c]; f_equal; val).
  destruct (C104_own_pixels_f64 ex_X [ex_fc1; ex_fc2] 1) as (rays & A & B).
  - cbn. lia.
  - split; [size 5|split; [size 0|size 5]].
  - exact ex_good.
  - lra.
  - cbn [map]. rewrite V1, V2, V3. apply (C86b_lemma [] [] [] (mkRay (mkV3 0 0 0) _) (mkRay (mkV3 10 0 0) _) 1).
    + repeat apply Forall_cons; try apply Forall_nil; cbn [ray_direction]; intros E; apply V3_inv in E; ru_spec; lra.
    + unfold cosine. cbn [ray_direction].
      replace (vdot (vsub (mkV3 5 0 5) (mkV3 0 0 0)) (vsub (mkV3 5 0 5) (mkV3 10 0 0))) with 0 by (ru_spec; ring).
      unfold Rdiv. rewrite Rmult_0_l, Rabs_R0. lra.
    + lra.
  - exists rays. inversion A as [|? r1 ? ? E1 A']; subst. inversion A' as [|? r2 ? ? E2 A'']; subst. inversion A''; subst.
    destruct (B ex_dsvd (1 / 10 ^ 6)) as (x & Q & _ & D).
    + apply ex_dsvd_near; lra.
    + lra.
    + refine (ex_not_failed _ _ r1 r2 E1 E2 _). vm_compute. reflexivity.
    + exists x. split; [exact A|]. split; [exact Q|]. rewrite <- V1. exact D.
Qed.
(** The first of these cameras, with the point seen one pixel off, at (513,0). *)
Definition ex_p1 : V2 f64 := mkV2 (lit 513 0) (lit 0 0).
Example ex_c1_sized : vec_sized 100 (fc_c ex_fc1). Proof. split; [size 0|split; size 0]. Qed.
Example ex_kt_sized : persp_sized 10000 ex_kt. Proof. split; [size 512|split; [size 512|split; [size 0|split; size 0]]]. Qed.
Example ex_qi_unit : unit_quat (mkQuat 0 0 0 1). Proof. unfold unit_quat, qnorm2; cbn; lra. Qed.
Example ex_kt_f : Rabs (B2R (pp_fx ex_kt)) = 512 /\ Rabs (B2R (pp_fy ex_kt)) = 512 /\ B2R (pp_skew ex_kt) = 0 /\ B2R (pp_cx ex_kt) = 0 /\ B2R (pp_cy ex_kt) = 0.
Proof.
  assert (A : B2R (lit 512 0) = 512) by val. assert (Z : B2R (lit 0 0) = 0) by val.
  unfold ex_kt; cbn [pp_fx pp_fy pp_skew pp_cx pp_cy]. rewrite A, Z. repeat split; rewrite Rabs_pos_eq; lra.
Qed.
Example ex_kt_skew : sized 0 (Rabs (B2R (pp_fy ex_kt))) (pp_skew ex_kt).
Proof. destruct ex_kt_f as (_ & A2 & A3 & _). split; [reflexivity|]. rewrite A2, A3, Rabs_R0. lra. Qed.
Example ex_kt_fx : 512 <= Rabs (B2R (pp_fx ex_kt)) /\ 5 * 10000 <= 100 * Rabs (B2R (pp_fx ex_kt)).
Proof. destruct ex_kt_f as (A & _). rewrite A. lra. Qed.
Example ex_kt_fy : 512 <= Rabs (B2R (pp_fy ex_kt)) /\ 5 * 10000 <= 100 * Rabs (B2R (pp_fy ex_kt)).
Proof. destruct ex_kt_f as (_ & A & _). rewrite A. lra. Qed.
Example ex_pin : pix_near 1 ex_p1 (pinhole ex_kt (mkV3 5 0 5)).
Proof.
  assert (A : B2R (lit 512 0) = 512) by val. assert (P1 : B2R (lit 513 0) = 513) by val. assert (P0 : B2R (lit 0 0) = 0) by val.
  unfold pinhole, ex_kt. cbn [pp_fx pp_fy pp_skew pp_cx pp_cy vx vy vz]. rewrite A, P0.
  split; (split; [reflexivity|]); cbn [px py ex_p1]; rewrite ?P1, ?P0; apply Rabs_le; lra.
Qed.
Example C102_case : exists center d, pixel_to_world (cam ex_fc1) (mkPixels [ex_p1]) = Some (mkRayBundle [d] (mkSO center)) /\
  vec_near (1 / 10 ^ 10) center vO /\
  exists y, vz y = 1 /\ pix_near (1 / 10 ^ 10) ex_p1 (pinhole ex_kt y) /\ vec_near (1 / 10 ^ 10) d (mv (mtr (rotm (mkQuat 0 0 0 1))) y).
Proof.
  assert (B : u = / 9007199254740992) by reflexivity.
  destruct (C102_ray_error 53 1024 _ _ fsin fcos u ex_qi (mkQuat 0 0 0 1) (fc_c ex_fc1) 100 10000 [ex_p1]) as (H & _);
    [rewrite B; lra|lia|exact ex_qi_unit|exact ex_qi_near|exact ex_c1_sized|lra|lra| | |].
  - apply big_f64. lra.
  - apply Forall_cons; [|apply Forall_nil]. split; [size 513|size 0].
  - destruct (H ex_kt) as (center & dirs & E & C & D); [exact ex_kt_sized| | | |].
    + exact ex_kt_skew.
    + exact (proj2 ex_kt_fx).
    + exact (proj2 ex_kt_fy).
    + inversion D as [|? d ? ? (y & Y1 & Y2 & Y3) D']; subst. inversion D'; subst.
      exists center, d. split; [exact E|]. split.
      * replace vO with (vreal (fc_c ex_fc1)) by (unfold vreal, ex_fc1, vO; cbn [fc_c vx vy vz]; f_equal; val).
        eapply vec_near_weak; [exact C|]. rewrite B. lra.
      * exists y. split; [exact Y1|]. split.
        -- eapply pix_near_weak; [exact Y2|]. rewrite B. lra.
        -- eapply vec_near_weak; [exact Y3|]. rewrite B. lra.
Qed.
Example C103_case : exists r, persp_ray ex_kt ex_qi (fc_c ex_fc1) ex_p1 = Some r /\
  line_dist2 (mkV3 5 0 5) (vreal (ray_center r)) (vreal (ray_direction r)) <= (4 / 100)² /\
  line_dist2 (mkV3 5 0 5) vO (vreal (ray_direction r)) <= (7 / 1000 * vlen (mkV3 5 0 5))².
Proof.
  assert (B : u = / 9007199254740992) by reflexivity.
  assert (Vc : vreal (fc_c ex_fc1) = vO) by (unfold vreal, ex_fc1, vO; cbn [fc_c vx vy vz]; f_equal; val).
  destruct C102_case as (center & d & E & _).
  assert (Er : persp_ray ex_kt ex_qi (fc_c ex_fc1) ex_p1 = Some (mkRay center d)) by (unfold persp_ray; refine (eq_trans (f_equal (fun o => rb <- o ;; _) E) eq_refl)).
  exists (mkRay center d). split; [exact Er|].
  destruct (C103_ray_passes_point 53 1024 _ _ fsin fcos u 100 10000 512 5 1 (mkV3 5 0 5) (mkRay center d) (mkRay vO (mkV3 5 0 5))) as (H1 & H2);
    [rewrite B; lra|lia|lra|lra|apply big_f64; lra|lra|lra|lra|lra|rewrite B; lra| |].
  - left. exists ex_kt, ex_qi, (mkQuat 0 0 0 1), (fc_c ex_fc1), ex_p1.
    split; [exact ex_qi_unit|]. split; [exact ex_qi_near|]. split; [exact ex_c1_sized|]. split; [exact ex_kt_sized|].
    split; [exact ex_kt_skew|]. split; [exact (proj1 ex_kt_fx)|]. split; [exact (proj1 ex_kt_fy)|]. split; [size 513|]. split; [size 0|].
    assert (T : to_camera (mkQuat 0 0 0 1) (vreal (fc_c ex_fc1)) (mkV3 5 0 5) = mkV3 5 0 5) by (rewrite Vc; unfold vO; apply V3_eq; ru_spec; lra).
    unfold depth. rewrite T. split; [cbn [vz]; rewrite Rabs_pos_eq; lra|]. split; [|split; [exact Er|]].
    + exact ex_pin.
    + rewrite Vc. f_equal. apply V3_eq; ru_spec; unfold vO; cbn [vx vy vz]; lra.
  - split.
    + eapply Rle_trans; [exact H1|]. apply Rsqr_incr_1; rewrite ?B; lra.
    + cbn [ray_direction] in H2. eapply Rle_trans; [exact H2|].
      assert (0 <= vlen (mkV3 5 0 5)) by apply sqrt_pos. revert H. generalize (vlen (mkV3 5 0 5)). intros l L.
      apply Rsqr_incr_1; [apply Rmult_le_compat_r; [exact L|]; rewrite ?B; lra| |apply Rmult_le_pos; lra].
      apply Rmult_le_pos; [rewrite ?B; lra|exact L].
Qed.
End F64.
Print Assumptions C104_triangulation_f64.
Print Assumptions C104_own_pixels_f64.
