(** * PropFloatSvd7.v - property theorems C120 - C122: decomposition, intersection and triangulation in floats with no condition on the smallest singular value, the directions of the rays, or the pixels *)

From Coq Require Import ZArith List Reals Lra Lia Psatz.
From Flocq Require Import Core BinarySingleNaN.
From Verif Require Import Scalar Linalg Bundles Extrinsics Perspective Camera Householder RayIntersection Convert SymEigen Spec SpecGeom SpecIsect SpecTri SpecSvd SpecFloatErr SpecFloatIsect SpecFloatTri SpecFloatTri2 SpecFloatSvd SpecFloatSvd2
  RealBase VecLemmas TriProofs IsectProofs FloatSvdProofs29 FloatSvdProofs30 PropFloatIsect PropSvd PropFloatSvd PropFloatTri PropFloatSvd4 PropFloatSvd5.
Import ListNotations.
Local Open Scope R_scope.

Section F64.
Variables fsin fcos : f64 -> f64.
Local Hint Extern 0 (Ops f64) => exact (f64_ops fsin fcos) : typeclass_instances.

(** C120: C116 with no condition number: the factors are those of a matrix within 2.9e-6
    times the norm, for singular matrices too. *)
Theorem C120_svd_backward (m : M33 f64) k : mat_finite m -> at_most k (mreal m) ->
  bpow radix2 (- (400)) <= k <= bpow radix2 400 -> pairs_at_least (49 / 100 * k ^ 2) (mreal m) ->
  exists d, svd_ordered3 m true true lit_1em7 100 = Some (Some d) /\ decomposes64 (29 / 10 ^ 7 * k) (1 / 10 ^ 11) m d.
Proof. exact (C120_lemma fsin fcos m k). Qed.
End F64.
Print Assumptions C120_svd_backward.

Section IEEE.
Variables (prec emax : Z) (Hp : Prec_gt_0 prec) (He : Prec_lt_emax prec emax).
Variables fsin fcos : binary_float prec emax -> binary_float prec emax.
Variables gsin gcos : f64 -> f64.
Local Notation F := (binary_float prec emax).
Local Hint Extern 0 (Ops (binary_float prec emax)) =>
  exact (B_ops prec emax Hp He fsin fcos) : typeclass_instances.
Local Hint Extern 0 (Ops f64) => exact (f64_ops gsin gcos) : typeclass_instances.
Local Hint Extern 0 (Ops (binary_float 53 1024)) => exact (f64_ops gsin gcos) : typeclass_instances.
Local Notation u := (bpow radix2 (- prec)).
Local Notation big := (bpow radix2 emax).

(** C121: two or more rays of moderate size, in any directions, parallel ones included: the
    intersection is one point, with finite coordinates, and not farther than this. *)
Theorem C121_intersection_finite {C} (E : Z) (to64 : F -> option f64) (from64 : f64 -> F) (M : R) (rays : list (Ray C F)) :
  (24 <= prec <= 53)%Z -> (emax <= 1024)%Z -> (0 <= E)%Z -> (2 * E + 34 <= emax)%Z ->
  exact_to64 to64 -> rounds_from64 from64 ->
  let n := INR (length rays) in
  1 <= M -> n * M <= bpow radix2 E -> n <= 2 ^ 36 -> (2 <= length rays)%nat -> Forall (ray_sized E M) rays ->
  exists x, best_intersection_of_rays to64 from64 svd3_try_new rays = Some (Ok (mkPoints [x])) /\ vec_finite x /\ vlen (vreal x) <= 10 ^ 9 * (n * M).
Proof. exact (C121_lemma prec emax Hp He fsin fcos gsin gcos E to64 from64 M rays). Qed.

(** C122: the rays which the program reports for any pixels of any cameras of moderate size,
    whether or not the pixels belong to one point: their intersection is one finite point. *)
Theorem C122_triangulation_finite (E : Z) to64 from64 w M P f (rays : list (Ray WorldFrame F)) :
  (24 <= prec <= 53)%Z -> (emax <= 1024)%Z -> (0 <= E)%Z -> (2 * E + 34 <= emax)%Z ->
  exact_to64 to64 -> rounds_from64 from64 -> u <= w <= / 2048 ->
  1 <= M -> 1 <= P -> 512 * P * M < big -> 0 < f -> 5 * P <= M * f -> 1060 * w * M <= 1 ->
  let n := INR (length rays) in
  n * (4 * M) <= bpow radix2 E -> n <= 2 ^ 36 -> (2 <= length rays)%nat -> Forall (any_view w M P f) rays ->
  exists x', best_intersection_of_rays to64 from64 svd3_try_new rays = Some (Ok (mkPoints [x'])) /\ vec_finite x' /\
    vlen (vreal x') <= 4 * 10 ^ 9 * (n * M).
Proof. intros P24 E1024 E0 E2 TX FR (UW & W11). exact (C122_lemma prec emax Hp He fsin fcos w UW W11 ltac:(lia) gsin gcos E to64 from64 M P f rays P24 E1024 E0 E2 TX FR). Qed.
End IEEE.
Print Assumptions C121_intersection_finite.
Print Assumptions C122_triangulation_finite.

Section Formats.
Variables fsin fcos : f64 -> f64.
Variables hsin hcos : f32 -> f32.
Local Hint Extern 0 (Ops f64) => exact (f64_ops fsin fcos) : typeclass_instances.
Local Hint Extern 0 (Ops f32) => exact (f32_ops hsin hcos) : typeclass_instances.
Local Hint Extern 0 (Ops (binary_float 53 1024)) => exact (f64_ops fsin fcos) : typeclass_instances.
Local Hint Extern 0 (Ops (binary_float 24 128)) => exact (f32_ops hsin hcos) : typeclass_instances.

(** C121: double precision. *)
Theorem C121_intersection_f64 {C} M (rays : list (Ray C f64)) :
  let n := INR (length rays) in
  (2 <= length rays)%nat -> n <= 1000000 -> 1 <= M <= 10 ^ 9 ->
  Forall (fun r => vec_sized M (ray_center r) /\ vec_finite (ray_direction r) /\ 1 / 10 ^ 9 <= vlen (vreal (ray_direction r)) <= 10 ^ 9) rays ->
  exists x', best_intersection_of_rays (fun x : f64 => Some x) (fun x : f64 => x) svd3_try_new rays = Some (Ok (mkPoints [x'])) /\
    vec_finite x' /\ vlen (vreal x') <= 10 ^ 9 * (n * M).
Proof. exact (C121a_lemma fsin fcos M rays). Qed.

(** C121: rays in single precision, sums and decomposition in double precision, as in the code. *)
Theorem C121_intersection_f32 {C} M (rays : list (Ray C f32)) :
  let n := INR (length rays) in
  (2 <= length rays)%nat -> n <= 1000000 -> 1 <= M <= 10 ^ 6 ->
  Forall (fun r => vec_sized M (ray_center r) /\ vec_finite (ray_direction r) /\ 1 / 10 ^ 9 <= vlen (vreal (ray_direction r)) <= 10 ^ 9) rays ->
  exists x', best_intersection_of_rays f32_to_f64 f64_to_f32 svd3_try_new rays = Some (Ok (mkPoints [x'])) /\
    vec_finite x' /\ vlen (vreal x') <= 10 ^ 9 * (n * M).
Proof. exact (C121b_lemma fsin fcos hsin hcos M rays). Qed.

(** C122: double and single precision, up to a million perspective cameras, each with a pixel. *)
Theorem C122_triangulation_f64 (views : list (fcam 53 1024 * V2 f64)) : (2 <= length views)%nat -> INR (length views) <= 1000000 ->
  Forall (good_view (bpow radix2 (- (53)))) views ->
  exists rays, Forall2 (fun a r => persp_ray (fc_k (fst a)) (fc_qh (fst a)) (fc_c (fst a)) (snd a) = Some r) views rays /\
    exists x', best_intersection_of_rays (fun x : f64 => Some x) (fun x : f64 => x) svd3_try_new rays = Some (Ok (mkPoints [x'])) /\ vec_finite x' /\
      vlen (vreal x') <= 4 * 10 ^ 11 * INR (length views).
Proof. exact (C122a_lemma fsin fcos views). Qed.
Theorem C122_triangulation_f32 (views : list (fcam 24 128 * V2 f32)) : (2 <= length views)%nat -> INR (length views) <= 1000000 ->
  Forall (good_view (bpow radix2 (- (24)))) views ->
  exists rays, Forall2 (fun a r => persp_ray (fc_k (fst a)) (fc_qh (fst a)) (fc_c (fst a)) (snd a) = Some r) views rays /\
    exists x', best_intersection_of_rays f32_to_f64 f64_to_f32 svd3_try_new rays = Some (Ok (mkPoints [x'])) /\ vec_finite x' /\
      vlen (vreal x') <= 4 * 10 ^ 11 * INR (length views).
Proof. exact (C122b_lemma fsin fcos hsin hcos views). Qed.
End Formats.
Print Assumptions C121_intersection_f64.
Print Assumptions C121_intersection_f32.
Print Assumptions C122_triangulation_f64.
Print Assumptions C122_triangulation_f32.

(** ** Case: the singular matrix of C116 *)
Local Hint Extern 0 (Ops f64) => exact (f64_ops ex_f ex_f) : typeclass_instances.
Local Notation lit m e := (@o_lit f64 (f64_ops ex_f ex_f) m%Z e%Z).
Example C120_case : exists d, svd_ordered3 (ex_m116 (lit 0 0)) true true lit_1em7 100 = Some (Some d) /\ decomposes64 (29 / 10 ^ 7 * (5 / 2)) (1 / 10 ^ 11) (ex_m116 (lit 0 0)) d.
Proof.
  apply (C120_svd_backward ex_f ex_f (ex_m116 (lit 0 0)) (5/2)).
  - repeat split; vm_compute; reflexivity.
  - apply ex_m116_most. assert (E : B2R (lit 0 0) = 0) by reflexivity. rewrite E. lra.
  - exact ex_m116_size.
  - apply ex_m116_pairs.
Qed.

(** ** Case: two parallel rays *)
Local Hint Extern 0 (Ops f32) => exact (f32_ops ex_h ex_h) : typeclass_instances.
Local Notation lit32 m e := (@o_lit f32 (f32_ops ex_h ex_h) m%Z e%Z).
Local Ltac value := cbv -[IZR Rdiv Rinv Rmult Ropp]; first [lra|field].
Local Ltac size z := split; [reflexivity|];
  match goal with |- _ <= Rabs ?x <= _ => replace x with z; [unfold Rabs; destruct (Rcase_abs z); lra|value] end.
Local Ltac sizes := unfold ex_pair; repeat apply Forall_cons; try apply Forall_nil; cbn [ray_center ray_direction];
  (split; [split; cbn [vx vy vz]; [first [size 0|size 1|size (-1)]|split; size 0]|
   split; [now repeat split|apply ex_between; unfold vreal; cbn [vx vy vz];
    repeat match goal with |- context [B2R ?a] => first [replace (B2R a) with 1 by value|replace (B2R a) with 0 by value|replace (B2R a) with (1/16) by value] end; ru_spec; lra]]).
Example C121_case64 : exists x, best_intersection_of_rays (fun x : f64 => Some x) (fun x : f64 => x) svd3_try_new (ex_pair (lit 1 0) (lit 0 0)) = Some (Ok (mkPoints [x])) /\
  vec_finite x /\ vlen (vreal x) <= 10 ^ 9 * (INR 2 * 1).
Proof. apply (C121_intersection_f64 ex_f ex_f 1 (ex_pair (lit 1 0) (lit 0 0))); [cbn; lia|cbn; lra|lra|sizes]. Qed.
Example C121_case32 : exists x, best_intersection_of_rays f32_to_f64 f64_to_f32 svd3_try_new (ex_pair (lit32 1 0) (lit32 0 0)) = Some (Ok (mkPoints [x])) /\
  vec_finite x /\ vlen (vreal x) <= 10 ^ 9 * (INR 2 * 1).
Proof. apply (C121_intersection_f32 ex_f ex_f ex_h ex_h 1 (ex_pair (lit32 1 0) (lit32 0 0))); [cbn; lia|cbn; lra|lra|sizes]. Qed.

(** ** Case: the same pixel of two cameras which look in the same direction *)
Local Hint Extern 0 (Ops (binary_float 53 1024)) => exact (f64_ops ex_f ex_f) : typeclass_instances.
Local Hint Extern 0 (Ops (binary_float 24 128)) => exact (f32_ops ex_h ex_h) : typeclass_instances.
Definition ex_views : list (fcam 53 1024 * V2 f64) :=
  [(ex_fc1 ex_f ex_f, mkV2 (lit 32 0) (lit 0 0)); (ex_fc2 ex_f ex_f, mkV2 (lit 32 0) (lit 0 0))].
Example C122_case64 : exists rays, Forall2 (fun a r => persp_ray (fc_k (fst a)) (fc_qh (fst a)) (fc_c (fst a)) (snd a) = Some r) ex_views rays /\
  exists x, best_intersection_of_rays (fun x : f64 => Some x) (fun x : f64 => x) svd3_try_new rays = Some (Ok (mkPoints [x])) /\ vec_finite x /\
    vlen (vreal x) <= 4 * 10 ^ 11 * INR 2.
Proof.
  apply (C122_triangulation_f64 ex_f ex_f ex_views); [cbn; lia|cbn; lra|].
  assert (U : unit_quat (mkQuat 0 0 0 1)) by (unfold unit_quat, qnorm2; cbn; lra).
  repeat apply Forall_cons; try apply Forall_nil; unfold good_view, ex_fc1, ex_fc2; cbn [fst snd fc_k fc_qh fc_q fc_c];
    (split; [exact U|]); (split; [apply ex_qi_near|]).
  - split; [split; [size 0|split; [size 0|size 0]]|]. split; [size 512|]. split; [size 512|]. split; [size 0|]. split; [size 0|]. split; [size 0|]. split; [size 32|size 0].
  - split; [split; [size 10|split; [size 0|size 0]]|]. split; [size 512|]. split; [size 512|]. split; [size 0|]. split; [size 0|]. split; [size 0|]. split; [size 32|size 0].
Qed.
Definition ex_views32 : list (fcam 24 128 * V2 f32) :=
  map (fun z => (mkFcam 24 128 (ex_kt32 ex_h ex_h) (ex_qi32 ex_h ex_h) (mkQuat 0 0 0 1) (ex_c32 ex_h ex_h z), mkV2 (lit32 32 0) (lit32 0 0))) [0; 10]%Z.
Example C122_case32 : exists rays, Forall2 (fun a r => persp_ray (fc_k (fst a)) (fc_qh (fst a)) (fc_c (fst a)) (snd a) = Some r) ex_views32 rays /\
  exists x, best_intersection_of_rays f32_to_f64 f64_to_f32 svd3_try_new rays = Some (Ok (mkPoints [x])) /\ vec_finite x /\
    vlen (vreal x) <= 4 * 10 ^ 11 * INR 2.
Proof.
  apply (C122_triangulation_f32 ex_f ex_f ex_h ex_h ex_views32); [cbn; lia|cbn; lra|].
  assert (U : unit_quat (mkQuat 0 0 0 1)) by (unfold unit_quat, qnorm2; cbn; lra).
  assert (B : bpow radix2 (- (24)) = / 16777216) by (simpl; lra).
  assert (N : quat_near (8 * bpow radix2 (- (24))) (ex_qi32 ex_h ex_h) (mkQuat 0 0 0 1)).
  { assert (Z0 : B2R (lit32 0 0) = 0) by value. assert (Z1 : B2R (lit32 1 0) = 1) by value.
    unfold quat_near, near, ex_qi32. cbn [qi qj qk qw]. rewrite Z0, Z1. repeat split; try reflexivity; apply Rabs_le; lra. }
  unfold ex_views32. cbn [map].
  repeat apply Forall_cons; try apply Forall_nil; unfold good_view; cbn [fst snd fc_k fc_qh fc_q fc_c];
    (split; [exact U|]); (split; [exact N|]).
  - split; [split; [size 0|split; [size 0|size 0]]|]. split; [size 512|]. split; [size 512|]. split; [size 0|]. split; [size 0|]. split; [size 0|]. split; [size 32|size 0].
  - split; [split; [size 10|split; [size 0|size 0]]|]. split; [size 512|]. split; [size 512|]. split; [size 0|]. split; [size 0|]. split; [size 0|]. split; [size 32|size 0].
Qed.
