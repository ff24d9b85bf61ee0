(** * PropIsect.v - property theorems C38-C46, C62

    The model is used with exact reals for both scalar types ([fun x => Some x]
    and [fun x => x] are the conversions between them). *)

From Coq Require Import List Reals Lra Lia ZArith Permutation.
From Flocq Require Import Core BinarySingleNaN.
From Verif Require Import Scalar Linalg Bundles Extrinsics Perspective Camera RayIntersection Spec SpecIsect RealBase VecLemmas ExtrinsicsProofs IsectBase IsectProofs SpectralProofs PropCamera.
Import ListNotations.
Local Open Scope R_scope.

(** C62: the assumptions on the SVD routine can be met, whatever the rays. *)
Theorem C62_svd_assumption_satisfiable {C} (rays : list (Ray C R)) : exists svd, svd_sound svd /\
  best_intersection_of_rays (fun x => Some x) (fun x => x) svd rays <> Some (Err SvdFailed).
Proof. exact (C62_lemma rays). Qed.
Print Assumptions C62_svd_assumption_satisfiable.

Example C62_case : exists svd, svd_sound svd /\ exists x,
  best_intersection_of_rays (fun x => Some x) (fun x => x) svd
    [mkRay (Coords := WorldFrame) (mkV3 0 0 0) (mkV3 2 0 0); mkRay (mkV3 3 0 1) (mkV3 0 1 0)] = Some (Ok (mkPoints [x])).
Proof.
  match goal with |- exists svd, _ /\ exists x, best_intersection_of_rays _ _ _ ?rs = _ =>
    destruct (C62_svd_assumption_satisfiable rs) as (svd & H & NF);
    destruct (isect_not_failed svd rs H ltac:(simpl; lia) NF) as (u & s & vt & _ & E) end.
  exists svd. split; [exact H|]. eexists. exact E.
Qed.

(** C38: which inputs give which error; no panic. *)
Theorem C38_error_cases {T F} {O : Ops T} {OF : Ops F} (to64 : T -> option F) (from64 : F -> T)
    (svd : M33 F -> bool -> bool -> F -> nat -> option (SVD F)) {Coords} (rays : list (Ray Coords T)) :
  (forall x, to64 x <> None) ->
  o_ltb (lit_1em7 (F := F)) o_zero = false ->
  (forall m eps n d, svd m true true eps n = Some d -> svd_u d <> None /\ svd_vt d <> None) ->
  let best := best_intersection_of_rays to64 from64 svd rays in
  ((length rays < 2)%nat <-> best = Some (Err MinimumTwoRaysNeeded)) /\
  ((2 <= length rays)%nat -> exists m,
     (svd m true true lit_1em7 100%nat = None /\ best = Some (Err SvdFailed)) \/
     (svd m true true lit_1em7 100%nat <> None /\ exists x, best = Some (Ok (mkPoints [x])))).
Proof. exact (C38_lemma to64 from64 svd rays). Qed.
Print Assumptions C38_error_cases.

(** f64 arithmetic: the assumptions on the conversion and the cutoff hold. *)
Example C38_case (fsin fcos : f64 -> f64) svd (c d c' d' : V3 f64) :
  let OF := f64_ops fsin fcos in
  (forall m eps n r, svd m true true eps n = Some r -> svd_u r <> None /\ svd_vt r <> None) ->
  best_intersection_of_rays (fun x => Some x) (fun x => x) svd [mkRay (Coords := WorldFrame) c d]
  = Some (Err MinimumTwoRaysNeeded) /\
  best_intersection_of_rays (fun x => Some x) (fun x => x) svd [mkRay (Coords := WorldFrame) c d; mkRay c' d'] <> None.
Proof.
  intros OF H. assert (L : o_ltb (lit_1em7 (F := f64)) o_zero = false) by (vm_compute; reflexivity).
  split.
  - apply (proj1 (C38_error_cases (fun x => Some x) (fun x => x) svd [mkRay (Coords := WorldFrame) c d]
      ltac:(discriminate) L H)). simpl; lia.
  - destruct (proj2 (C38_error_cases (fun x => Some x) (fun x => x) svd [mkRay (Coords := WorldFrame) c d; mkRay c' d']
      ltac:(discriminate) L H) ltac:(simpl; lia)) as (m & [(_ & E)|(_ & x & E)]); rewrite E; discriminate.
Qed.

(** C40: two rays which are not nearly parallel make any list well conditioned. *)
Theorem C40_two_rays_suffice {C} (l1 l2 l3 : list (Ray C R)) r1 r2 :
  let rays := l1 ++ r1 :: l2 ++ r2 :: l3 in
  nonzero_dirs rays -> Rabs (cosine (ray_direction r1) (ray_direction r2)) < 1 - cutoff ->
  well_conditioned rays.
Proof. exact (C40_lemma l1 l2 l3 r1 r2). Qed.
Print Assumptions C40_two_rays_suffice.

Definition ex_r1 : Ray WorldFrame R := mkRay (mkV3 0 0 0) (mkV3 2 0 0).
Definition ex_r2 : Ray WorldFrame R := mkRay (mkV3 3 0 1) (mkV3 0 1 0).
Definition ex_r3 : Ray WorldFrame R := mkRay (mkV3 1 1 1) (mkV3 (-1) 0 0).
Lemma ex_rays_dirs : nonzero_dirs [ex_r1; ex_r3; ex_r2].
Proof. repeat constructor; cbn; unfold vO; intros E; apply V3_inv in E; lra. Qed.
Example C40_case : well_conditioned [ex_r1; ex_r3; ex_r2].
Proof.
  apply (C40_two_rays_suffice [] [ex_r3] [] ex_r1 ex_r2); [exact ex_rays_dirs|].
  unfold cosine. replace (vdot (ray_direction ex_r1) (ray_direction ex_r2)) with 0 by (cbn; ru_spec; ring).
  unfold Rdiv. rewrite Rmult_0_l, Rabs_R0. pose proof cutoff_lt. lra.
Qed.

(** C39: the squared distance [line_dist2] is that to the closest point of the line. *)
Theorem C39_line_distance y p d : d <> vO ->
  (forall t, line_dist2 y p d <= vdot (vsub y (vadd p (vscl t d))) (vsub y (vadd p (vscl t d)))) /\
  (exists t, line_dist2 y p d = vdot (vsub y (vadd p (vscl t d))) (vsub y (vadd p (vscl t d)))).
Proof. exact (C39b_lemma y p d). Qed.
Print Assumptions C39_line_distance.

(** C39: the result is the only least squares point. *)
Theorem C39_least_squares svd {C} (rays : list (Ray C R)) : svd_sound svd -> (2 <= length rays)%nat ->
  nonzero_dirs rays -> well_conditioned rays ->
  let best := best_intersection_of_rays (fun x => Some x) (fun x => x) svd rays in
  best <> Some (Err SvdFailed) ->
  exists x, best = Some (Ok (mkPoints [x])) /\
    (forall y, y <> x -> sum_sq_dist rays x < sum_sq_dist rays y).
Proof. exact (C39_lemma svd rays). Qed.
Print Assumptions C39_least_squares.

(** Two skew lines: the result is the middle of the common perpendicular. *)
Example C39_case : exists svd,
  best_intersection_of_rays (fun x => Some x) (fun x => x) svd [ex_r1; ex_r2] = Some (Ok (mkPoints [mkV3 3 0 (1/2)])).
Proof.
  destruct (C62_svd_assumption_satisfiable [ex_r1; ex_r2]) as (svd & H & NF). exists svd.
  assert (N : nonzero_dirs [ex_r1; ex_r2]).
  { repeat constructor; cbn; unfold vO; intros E; apply V3_inv in E; lra. }
  assert (W : well_conditioned [ex_r1; ex_r2]).
  { apply (C40_two_rays_suffice [] [] [] ex_r1 ex_r2 N).
    unfold cosine. replace (vdot (ray_direction ex_r1) (ray_direction ex_r2)) with 0 by (cbn; ru_spec; ring).
    unfold Rdiv. rewrite Rmult_0_l, Rabs_R0. pose proof cutoff_lt. lra. }
  destruct (C39_least_squares svd [ex_r1; ex_r2] H ltac:(simpl; lia) N W NF) as ([x y z] & E & M). rewrite E.
  do 4 f_equal. destruct (V3_dec (mkV3 3 0 (1/2)) (mkV3 x y z)) as [Q|Q]; [now symmetry|exfalso].
  specialize (M _ Q). clear -M. unfold sum_sq_dist, rsum in M. cbn [map fold_right ex_r1 ex_r2 ray_center ray_direction] in M.
  unfold line_dist2 in M. ru_spec. 
  pose proof (Rle_0_sqr (x - 3)). pose proof (Rle_0_sqr y). pose proof (Rle_0_sqr (2 * z - 1)). unfold Rsqr in *.
  match type of M with ?l < _ => replace l with (y * y + z * z + ((x - 3) * (x - 3) + (z - 1) * (z - 1))) in M by field end.
  match type of M with _ < ?r => replace r with (1/2) in M by field end. lra.
Qed.

(** C41: lines through one point give that point. *)
Theorem C41_concurrent_rays svd {C} (rays : list (Ray C R)) x : svd_sound svd -> (2 <= length rays)%nat ->
  nonzero_dirs rays -> well_conditioned rays ->
  Forall (fun r => exists t, x = vadd (ray_center r) (vscl t (ray_direction r))) rays ->
  let best := best_intersection_of_rays (fun x => Some x) (fun x => x) svd rays in
  best <> Some (Err SvdFailed) -> best = Some (Ok (mkPoints [x])).
Proof. exact (C41_lemma svd rays x). Qed.
Print Assumptions C41_concurrent_rays.

Example C41_case : exists svd,
  best_intersection_of_rays (fun x => Some x) (fun x => x) svd
    [mkRay (Coords := WorldFrame) (mkV3 0 2 3) (mkV3 2 0 0); mkRay (mkV3 1 0 3) (mkV3 0 (-3) 0); mkRay (mkV3 0 1 2) (mkV3 1 1 1)]
  = Some (Ok (mkPoints [mkV3 1 2 3])).
Proof.
  match goal with |- exists svd, best_intersection_of_rays _ _ _ ?rs = _ =>
    destruct (C62_svd_assumption_satisfiable rs) as (svd & H & NF); exists svd; set (rays := rs) in * end.
  assert (N : nonzero_dirs rays).
  { repeat constructor; cbn; unfold vO; intros E; apply V3_inv in E; lra. }
  apply C41_concurrent_rays; try assumption.
  - simpl; lia.
  - apply (C40_two_rays_suffice [] [] [mkRay (mkV3 0 1 2) (mkV3 1 1 1)] _ _ N).
    unfold cosine. cbn [ray_direction]. replace (vdot (mkV3 2 0 0) (mkV3 0 (-3) 0)) with 0 by (ru_spec; ring).
    unfold Rdiv. rewrite Rmult_0_l, Rabs_R0. pose proof cutoff_lt. lra.
  - repeat constructor; cbn [ray_center ray_direction];
    [exists (1/2)|exists (-2/3)|exists 1]; apply V3_eq; ru_spec; field.
Qed.

(** C42: for two rays nearly parallel to the z axis which meet in X the result is
    X with its z coordinate replaced by 0. *)
Theorem C42_nearly_parallel_rays svd X a b t1 t2 : svd_sound svd ->
  a <> 0 -> 2 * (a * a) <= cutoff * (a * a + b * b) -> vz X <> 0 ->
  let r1 := mkRay (Coords := WorldFrame) (vadd X (vscl t1 (mkV3 a 0 b))) (mkV3 a 0 b) in
  let r2 := mkRay (Coords := WorldFrame) (vadd X (vscl t2 (mkV3 (- a) 0 b))) (mkV3 (- a) 0 b) in
  (* the lines meet in X and nowhere else *)
  (forall y, (exists s, y = vadd (ray_center r1) (vscl s (ray_direction r1))) /\
             (exists s, y = vadd (ray_center r2) (vscl s (ray_direction r2))) <-> y = X) /\
  (let best := best_intersection_of_rays (fun x => Some x) (fun x => x) svd [r1; r2] in
   best <> Some (Err SvdFailed) ->
   best = Some (Ok (mkPoints [mkV3 (vx X) (vy X) 0])) /\ mkV3 (vx X) (vy X) 0 <> X).
Proof. exact (C42_lemma svd X a b t1 t2). Qed.
Print Assumptions C42_nearly_parallel_rays.

Example C42_case : exists svd,
  best_intersection_of_rays (fun x => Some x) (fun x => x) svd
    [mkRay (Coords := WorldFrame) (mkV3 2 1 (-9994)) (mkV3 1 0 10000); mkRay (mkV3 4 1 (-9994)) (mkV3 (-(1)) 0 10000)]
  = Some (Ok (mkPoints [mkV3 3 1 0])).
Proof.
  match goal with |- exists svd, best_intersection_of_rays _ _ _ ?rs = _ =>
    destruct (C62_svd_assumption_satisfiable rs) as (svd & H & NF); exists svd end.
  destruct (C42_nearly_parallel_rays svd (mkV3 3 1 6) 1 10000 (-1) (-1) H) as (_ & G).
  - lra.
  - pose proof cutoff_gt. lra.
  - cbn; lra.
  - cbv zeta in G.
    replace (vadd (mkV3 3 1 6) (vscl (-1) (mkV3 1 0 10000))) with (mkV3 2 1 (-9994)) in G by (apply V3_eq; ru_spec; ring).
    replace (vadd (mkV3 3 1 6) (vscl (-1) (mkV3 (- (1)) 0 10000))) with (mkV3 4 1 (-9994)) in G by (apply V3_eq; ru_spec; ring).
    exact (proj1 (G NF)).
Qed.

(** C42: it is false that two rays meeting in exactly one point always give that point. *)
Theorem C42_meeting_rays_refuted :
  ~ (forall svd (r1 r2 : Ray WorldFrame R) x, svd_sound svd ->
       (forall y, (exists s, y = vadd (ray_center r1) (vscl s (ray_direction r1))) /\
                  (exists s, y = vadd (ray_center r2) (vscl s (ray_direction r2))) <-> y = x) ->
       let best := best_intersection_of_rays (fun x => Some x) (fun x => x) svd [r1; r2] in
       best <> Some (Err SvdFailed) -> best = Some (Ok (mkPoints [x]))).
Proof. exact C42b_lemma. Qed.
Print Assumptions C42_meeting_rays_refuted.

(** C43: parallel rays give the least squares point closest to the origin. *)
Theorem C43_parallel_rays svd {C} (rays : list (Ray C R)) n : svd_sound svd -> (2 <= length rays)%nat ->
  n <> vO -> Forall (fun r => exists s, s <> 0 /\ ray_direction r = vscl s n) rays ->
  let best := best_intersection_of_rays (fun x => Some x) (fun x => x) svd rays in
  best <> Some (Err SvdFailed) ->
  exists x, best = Some (Ok (mkPoints [x])) /\
    (forall y, sum_sq_dist rays x <= sum_sq_dist rays y) /\
    (forall y, y <> x -> sum_sq_dist rays y = sum_sq_dist rays x -> vlen x < vlen y).
Proof. exact (C43_lemma svd rays n). Qed.
Print Assumptions C43_parallel_rays.

(** Two rays along z: every point (2, 0, z) minimizes, the result is (2, 0, 0). *)
Example C43_case : exists svd x,
  best_intersection_of_rays (fun x => Some x) (fun x => x) svd
    [mkRay (Coords := WorldFrame) (mkV3 1 0 7) (mkV3 0 0 1); mkRay (mkV3 3 0 8) (mkV3 0 0 (-2))]
  = Some (Ok (mkPoints [x])) /\ vlen x <= 2.
Proof.
  match goal with |- exists svd x, best_intersection_of_rays _ _ _ ?rs = _ /\ _ =>
    destruct (C62_svd_assumption_satisfiable rs) as (svd & H & NF); exists svd; set (rays := rs) in * end.
  destruct (C43_parallel_rays svd rays (mkV3 0 0 1) H) as (x & E & M1 & M2).
  - simpl; lia.
  - unfold vO; intros E; apply V3_inv in E; lra.
  - repeat constructor; [exists 1|exists (-2)]; (split; [lra|]); cbn [ray_direction]; apply V3_eq; ru_spec; ring.
  - exact NF.
  - exists x. split; [exact E|]. destruct (V3_dec (mkV3 2 0 0) x) as [<-|Q].
    + right. apply vlen_unique; [lra|ru_spec; ring].
    + left. replace 2 with (vlen (mkV3 2 0 0)) by (apply vlen_unique; [lra|ru_spec; ring]).
      apply M2; [exact Q|]. apply Rle_antisym; [|apply M1].
      clear. destruct x as [x y z]. unfold sum_sq_dist, rsum, rays. cbn [map fold_right ray_center ray_direction].
      unfold line_dist2. ru_spec.
      match goal with |- ?l <= ?r => replace l with 2 by field;
        replace r with (2 + 2 * ((x - 2) * (x - 2) + y * y)) by field end.
      pose proof (Rle_0_sqr (x - 2)). pose proof (Rle_0_sqr y). unfold Rsqr in *. lra.
Qed.

(** C44: the result depends only on the lines, not on their order and parametrization;
    for any SVD routine, sound or not. *)
Theorem C44_only_lines_matter svd {C} (rays mid rays' : list (Ray C R)) : nonzero_dirs rays ->
  Permutation rays mid -> Forall2 same_line mid rays' ->
  best_intersection_of_rays (fun x => Some x) (fun x => x) svd rays
  = best_intersection_of_rays (fun x => Some x) (fun x => x) svd rays'.
Proof. exact (C44_lemma svd rays mid rays'). Qed.
Print Assumptions C44_only_lines_matter.

Example C44_case svd : best_intersection_of_rays (fun x => Some x) (fun x => x) svd [ex_r1; ex_r3; ex_r2]
  = best_intersection_of_rays (fun x => Some x) (fun x => x) svd
      [mkRay (mkV3 3 8 1) (mkV3 0 (-5) 0); mkRay (mkV3 2 0 0) (mkV3 1 0 0); mkRay (mkV3 0 1 1) (mkV3 1 0 0)].
Proof.
  apply (C44_only_lines_matter svd _ [ex_r2; ex_r1; ex_r3] _ ex_rays_dirs).
  - apply Permutation_sym. change [ex_r1; ex_r3; ex_r2] with ([ex_r1; ex_r3] ++ [ex_r2]). apply Permutation_cons_append.
  - repeat constructor; [exists (-5), 8|exists (1/2), 1|exists (-1), 1]; (split; [lra|]); split;
    cbn [ex_r1 ex_r2 ex_r3 ray_direction ray_center]; apply V3_eq; ru_spec; field.
Qed.

(** C45: moving the rays moves the result (reflections included). *)
Theorem C45_rigid_motion svd {C} (rays : list (Ray C R)) m t : svd_sound svd -> (2 <= length rays)%nat ->
  nonzero_dirs rays -> well_conditioned rays -> orthogonal m ->
  let best := best_intersection_of_rays (fun x => Some x) (fun x => x) svd rays in
  let best' := best_intersection_of_rays (fun x => Some x) (fun x => x) svd (map (move_ray m t) rays) in
  best <> Some (Err SvdFailed) -> best' <> Some (Err SvdFailed) ->
  exists x, best = Some (Ok (mkPoints [x])) /\ best' = Some (Ok (mkPoints [vadd (mv m x) t])).
Proof. exact (C45_lemma svd rays m t). Qed.
Print Assumptions C45_rigid_motion.

Example C45_case svd t : svd_sound svd ->
  let rays := [ex_r1; ex_r3; ex_r2] in
  best_intersection_of_rays (fun x => Some x) (fun x => x) svd rays <> Some (Err SvdFailed) ->
  best_intersection_of_rays (fun x => Some x) (fun x => x) svd (map (move_ray (rotm ex_q) t) rays) <> Some (Err SvdFailed) ->
  exists x, best_intersection_of_rays (fun x => Some x) (fun x => x) svd rays = Some (Ok (mkPoints [x])) /\
    best_intersection_of_rays (fun x => Some x) (fun x => x) svd (map (move_ray (rotm ex_q) t) rays)
    = Some (Ok (mkPoints [vadd (mv (rotm ex_q) x) t])).
Proof.
  intros H rays. apply (C45_rigid_motion svd rays (rotm ex_q) t H).
  - simpl; lia.
  - exact ex_rays_dirs.
  - exact C40_case.
  - apply rotm_orthogonal, ex_q_unit.
Qed.

(** C46: projecting a point into several cameras, back-projecting the pixels to rays
    and intersecting the rays gives the point. *)
Theorem C46_triangulation svd X (l1 l2 l3 : list (PerspectiveParams R * Quat R * V3 R)) a b : svd_sound svd ->
  let cams := l1 ++ a :: l2 ++ b :: l3 in
  Forall (fun kqc => let k := fst (fst kqc) in let q := snd (fst kqc) in let c := snd kqc in
    pp_fx k <> 0 /\ pp_fy k <> 0 /\ unit_quat q /\ vz (mv (rotm q) (vsub X c)) <> 0) cams ->
  Rabs (cosine (vsub X (snd a)) (vsub X (snd b))) < 1 - cutoff ->
  exists rays : list (Ray WorldFrame R),
    Forall2 (fun kqc r =>
      let cam := camera_new (perspective_from (fst (fst kqc))) (from_rotation_and_camcenter (snd (fst kqc)) (snd kqc)) in
      (px <- world_to_pixel cam (mkPoints [X]) ;;
       rb <- pixel_to_world cam px ;;
       @to_single_ray R _ _ SharedOrigin_Bundle rb) = Some r) cams rays /\
    (let best := best_intersection_of_rays (fun x => Some x) (fun x => x) svd rays in
     best <> Some (Err SvdFailed) -> best = Some (Ok (mkPoints [X]))).
Proof. exact (C46_lemma svd X l1 l2 l3 a b). Qed.
Print Assumptions C46_triangulation.

(** A camera at (1,2,3) and one at (5,0,0) looking at (2,4,5). *)
Example C46_case : exists svd rays,
  Forall2 (fun c r =>
      let cam := camera_new (perspective_from ex_k) (from_rotation_and_camcenter ex_q c) in
      (px <- world_to_pixel cam (mkPoints [mkV3 2 4 5]) ;;
       rb <- pixel_to_world cam px ;;
       @to_single_ray R _ _ SharedOrigin_Bundle rb) = Some r) [ex_c; mkV3 5 0 0] rays /\
  best_intersection_of_rays (fun x => Some x) (fun x => x) svd rays = Some (Ok (mkPoints [mkV3 2 4 5])).
Proof.
  assert (Co : Rabs (cosine (vsub (mkV3 2 4 5) ex_c) (vsub (mkV3 2 4 5) (mkV3 5 0 0))) < 1 - cutoff).
  { assert (L1 : vlen (vsub (mkV3 2 4 5) ex_c) = 3) by (apply vlen_unique; [lra|unfold ex_c; ru_spec; ring]).
    assert (L2 : 7 <= vlen (vsub (mkV3 2 4 5) (mkV3 5 0 0))).
    { apply Rsqr_incr_0_var; [|apply vlen_nonneg]. unfold Rsqr. rewrite vlen_sq. ru_spec. lra. }
    unfold cosine. rewrite L1. replace (vdot (vsub (mkV3 2 4 5) ex_c) (vsub (mkV3 2 4 5) (mkV3 5 0 0))) with 15
      by (unfold ex_c; ru_spec; ring).
    set (l := vlen _) in *. pose proof cutoff_lt.
    rewrite Rabs_pos_eq by (apply Rmult_le_pos; [lra|left; apply Rinv_0_lt_compat; lra]).
    apply Rle_lt_trans with (15 / 21); [|lra].
    apply Rmult_le_compat_l; [lra|]. apply Rinv_le_contravar; lra. }
  destruct (C46_triangulation (fun _ _ _ _ _ => None) (mkV3 2 4 5) [] [] [] (ex_k, ex_q, ex_c) (ex_k, ex_q, mkV3 5 0 0)) as (rays & A & _).
  { intros ? ? ? ?. discriminate. }
  { repeat constructor; cbn [fst snd]; try apply ex_fx; try apply ex_fy; try apply ex_q_unit;
    unfold ex_q, ex_c; ru_spec; lra. }
  { exact Co. }
  destruct (C62_svd_assumption_satisfiable rays) as (svd & H & NF). exists svd, rays.
  destruct (C46_triangulation svd (mkV3 2 4 5) [] [] [] (ex_k, ex_q, ex_c) (ex_k, ex_q, mkV3 5 0 0) H) as (rays' & A' & B').
  { repeat constructor; cbn [fst snd]; try apply ex_fx; try apply ex_fy; try apply ex_q_unit;
    unfold ex_q, ex_c; ru_spec; lra. }
  { exact Co. }
  cbn [app] in A, A'.
  inversion A as [|? r1 ? ? E1 A1]; subst. inversion A1 as [|? r2 ? ? E2 A2]; subst. inversion A2; subst.
  inversion A' as [|? r1' ? ? E1' A1']; subst. inversion A1' as [|? r2' ? ? E2' A2']; subst. inversion A2'; subst.
  cbv zeta in E1, E2, E1', E2'. cbn [fst snd] in E1, E2, E1', E2'.
  rewrite E1 in E1'. rewrite E2 in E2'. injection E1' as <-. injection E2' as <-.
  split; [repeat constructor; assumption|]. apply B'. exact NF.
Qed.

