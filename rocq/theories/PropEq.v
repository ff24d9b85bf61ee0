(** * PropEq.v - property theorems C92-C95: equality of values, output of the examples *)

From Coq Require Import List ZArith Reals Lra Lia String.
From Flocq Require Import Core BinarySingleNaN.
From Verif Require Import Scalar Linalg Bundles Extrinsics Perspective Orthographic Camera RayIntersection Equality Examples
  Spec SpecEq SpecIsect SpecFloatErr RealBase VecLemmas EqualityProofs ExamplesProofs PropIsect.
Import ListNotations.
Local Open Scope R_scope.

Section IEEE.
Variables (prec emax : Z) (Hp : Prec_gt_0 prec) (He : Prec_lt_emax prec emax).
Variables fsin fcos : binary_float prec emax -> binary_float prec emax.
Local Notation F := (binary_float prec emax).
Local Hint Extern 0 (Ops (binary_float prec emax)) =>
  exact (B_ops prec emax Hp He fsin fcos) : typeclass_instances.

(** C92: [==] is symmetric and transitive on every type, as [PartialEq] demands. *)
Theorem C92_partial_equivalence :
  partial_equivalence (extrinsics_eqb (T := F)) /\
  partial_equivalence (perspective_eqb (T := F)) /\
  partial_equivalence (orthographic_eqb (T := F)) /\
  (forall I (eqI : I -> I -> bool), partial_equivalence eqI -> partial_equivalence (camera_eqb (T := F) eqI)) /\
  partial_equivalence (shared_origin_eqb (T := F)) /\
  partial_equivalence (shared_direction_eqb (T := F)) /\
  (forall C B (eqB : B -> B -> bool), partial_equivalence eqB -> partial_equivalence (bundle_eqb (T := F) (C := C) eqB)).
Proof. exact (C92_lemma prec emax Hp He fsin fcos). Qed.

(** C92, second part: a value equals itself exactly when it stores no NaN. *)
Theorem C92_self_equal :
  (forall e : ExtrinsicParameters F, extrinsics_eqb e e = true <-> Forall (fun x => is_nan x = false) (extrinsics_numbers e)) /\
  (forall k : IntrinsicParametersPerspective F, perspective_eqb k k = true <-> Forall (fun x => is_nan x = false) (perspective_numbers k)) /\
  (forall k : IntrinsicParametersOrthographic F, orthographic_eqb k k = true <-> Forall (fun x => is_nan x = false) (orthographic_numbers k)) /\
  (forall C (b : RayBundle C (SharedOriginRayBundle F) F), bundle_eqb shared_origin_eqb b b = true <->
     Forall (fun x => is_nan x = false) (bundle_numbers (fun t => v3_numbers (so_center t)) b)) /\
  (forall C (b : RayBundle C (SharedDirectionRayBundle F) F), bundle_eqb shared_direction_eqb b b = true <->
     Forall (fun x => is_nan x = false) (bundle_numbers (fun t => v3_numbers (sd_direction t)) b)).
Proof. exact (C92b_lemma prec emax Hp He fsin fcos). Qed.

(** C93: extrinsics compare equal exactly when they were built from the same center and from the
    same or opposite quaternions, and no number stored is a NaN. *)
Theorem C93_equal_extrinsics_iff (q q' : Quat F) (c c' : V3 F) :
  extrinsics_eqb (from_rotation_and_camcenter q c) (from_rotation_and_camcenter q' c') = true <->
  (same_quat q q' \/ same_quat q (q_neg q')) /\ same_vec c c' /\
  Forall (fun x => is_nan x = false) (extrinsics_numbers (from_rotation_and_camcenter q c)).
Proof. exact (C93_iff_lemma prec emax Hp He fsin fcos q q' c c'). Qed.

(** C94: equal extrinsics transform points to the same numbers, and equal cameras give the same
    pixels (up to the sign of a zero), unless the point has depth zero. *)
Theorem C94_equal_extrinsics_same_results (q q' : Quat F) (c c' : V3 F) pts :
  extrinsics_eqb (from_rotation_and_camcenter q c) (from_rotation_and_camcenter q' c') = true ->
  (exists out out', world_to_camera (from_rotation_and_camcenter q c) (mkPoints pts) = Some (mkPoints out) /\
     world_to_camera (from_rotation_and_camcenter q' c') (mkPoints pts) = Some (mkPoints out') /\
     Forall2 same_vec out out') /\
  (exists out out', camera_to_world (from_rotation_and_camcenter q c) (mkPoints pts) = Some (mkPoints out) /\
     camera_to_world (from_rotation_and_camcenter q' c') (mkPoints pts) = Some (mkPoints out') /\
     Forall2 same_vec out out').
Proof. exact (C93_lemma prec emax Hp He fsin fcos q q' c c' pts). Qed.
Theorem C94_equal_cameras_same_pixels (k k' : PerspectiveParams F) (q q' : Quat F) (c c' : V3 F) x :
  camera_eqb perspective_eqb (camera_new (perspective_from k) (from_rotation_and_camcenter q c))
    (camera_new (perspective_from k') (from_rotation_and_camcenter q' c')) = true ->
  exists y p p',
    world_to_camera (from_rotation_and_camcenter q c) (mkPoints [x]) = Some (mkPoints [y]) /\
    world_to_pixel (camera_new (perspective_from k) (from_rotation_and_camcenter q c)) (mkPoints [x]) = Some (mkPixels [p]) /\
    world_to_pixel (camera_new (perspective_from k') (from_rotation_and_camcenter q' c')) (mkPoints [x]) = Some (mkPixels [p']) /\
    ((exists s, vz y = B754_zero s) \/ same_number (px p) (px p') /\ same_number (py p) (py p')).
Proof. exact (C94_lemma prec emax Hp He fsin fcos k k' q q' c c' x). Qed.
End IEEE.
Print Assumptions C92_partial_equivalence.
Print Assumptions C92_self_equal.
Print Assumptions C93_equal_extrinsics_iff.
Print Assumptions C94_equal_extrinsics_same_results.
Print Assumptions C94_equal_cameras_same_pixels.

(** Two representations of one pose in double precision, with zeros of both signs; a pose with a
    NaN, which differs from itself; two cameras. *)
Section Cases.
Variables fsin fcos : f64 -> f64.
Local Hint Extern 0 (Ops f64) => exact (f64_ops fsin fcos) : typeclass_instances.
Local Notation num m e := (@o_lit f64 (f64_ops fsin fcos) m%Z e%Z).
Local Notation z0 := (B754_zero false : f64).
Local Notation z1 := (B754_zero true : f64).
Definition eq_q : Quat f64 := mkQuat z0 z0 (num 3 (-2)) (num 1 (-1)).
Definition eq_q' : Quat f64 := mkQuat z0 z1 (num (-3) (-2)) (num (-1) (-1)).
Definition eq_c : V3 f64 := mkV3 (num 1 0) (num 2 0) z0.
Definition eq_c' : V3 f64 := mkV3 (num 1 0) (num 2 0) z1.
Example C93_case : extrinsics_eqb (from_rotation_and_camcenter eq_q eq_c) (from_rotation_and_camcenter eq_q' eq_c') = true.
Proof. vm_compute. reflexivity. Qed.
Example C92_case :
  let e := from_rotation_and_camcenter eq_q (mkV3 B754_nan z0 z0) in extrinsics_eqb e e = false.
Proof. vm_compute. reflexivity. Qed.
Example C94_case : 
  camera_eqb perspective_eqb
    (camera_new (perspective_from (mkPP (num 100 0) (num 100 0) z0 (num 640 0) (num 480 0))) (from_rotation_and_camcenter eq_q eq_c))
    (camera_new (perspective_from (mkPP (num 100 0) (num 100 0) z1 (num 640 0) (num 480 0))) (from_rotation_and_camcenter eq_q' eq_c')) = true.
Proof. vm_compute. reflexivity. Qed.
End Cases.

(** C93 with exact numbers: extrinsics compare equal exactly when they transform every point alike. *)
Theorem C93_equal_iff_same_transform q q' c c' : unit_quat q -> unit_quat q' ->
  (extrinsics_eqb (from_rotation_and_camcenter q c) (from_rotation_and_camcenter q' c') = true <->
   forall x, to_camera q c x = to_camera q' c' x).
Proof. exact (C93_real_lemma q q' c c'). Qed.
Print Assumptions C93_equal_iff_same_transform.

Example C93_real_case :
  extrinsics_eqb (from_rotation_and_camcenter (mkQuat 0 0 (3/5) (4/5)) (mkV3 1 2 3))
    (from_rotation_and_camcenter (mkQuat (-0) (-0) (-(3/5)) (-(4/5))) (mkV3 1 2 3)) = true /\
  extrinsics_eqb (from_rotation_and_camcenter (mkQuat 0 0 (3/5) (4/5)) (mkV3 1 2 3))
    (from_rotation_and_camcenter (mkQuat 0 0 (-(3/5)) (4/5)) (mkV3 1 2 3)) = false.
Proof.
  assert (U : unit_quat (mkQuat 0 0 (3/5) (4/5))) by (ru_spec; lra).
  assert (U' : unit_quat (mkQuat (-0) (-0) (-(3/5)) (-(4/5)))) by (ru_spec; lra).
  assert (U'' : unit_quat (mkQuat 0 0 (-(3/5)) (4/5))) by (ru_spec; lra).
  split.
  - apply C93_equal_iff_same_transform; auto. intros x. apply V3_eq; ru_spec; field.
  - match goal with |- ?b = false => destruct b eqn:E end; [exfalso|reflexivity].
    rewrite C93_equal_iff_same_transform in E by auto. specialize (E (mkV3 2 2 3)). unfold to_camera in E. apply (f_equal vy) in E. revert E. ru_spec. lra.
Qed.

(** C95: the example programs print what the documentation says.  The first one runs in double
    precision; the sine and cosine of the double nearest to pi/2 are assumed to be rounded
    correctly. *)
Section F64.
Variables fsin fcos : f64 -> f64.
Local Hint Extern 0 (Ops f64) => exact (f64_ops fsin fcos) : typeclass_instances.
Local Notation num z := (@o_lit f64 (f64_ops fsin fcos) z%Z 0%Z).
Theorem C95_projection_example :
  fsin (o_pi64 / o_two)%S = o_one -> fcos (o_pi64 / o_two)%S = o_lit 4967757600021511%Z (-106)%Z ->
  main_3d_to_2d = Some [(mkV3 (num 1) (num 0) (num 0), mkV2 (num 640) (num 480));
                        (mkV3 (num 0) (num 1) (num 0), mkV2 (num 650) (num 480))].
Proof. exact (C95_main_lemma fsin fcos). Qed.
End F64.
Print Assumptions C95_projection_example.

Theorem C95_intersection_example svd : svd_sound svd ->
  let rays := [mkRay (Coords := WorldFrame) (mkV3 1 0 0) (mkV3 0 1 0); mkRay (mkV3 0 1 0) (mkV3 1 0 0)] in
  best_intersection_of_rays (fun x => Some x) (fun x => x) svd rays <> Some (Err SvdFailed) ->
  main_ray_intersect (fun x => Some x) (fun x => x) svd = Some [mkV3 1 1 0].
Proof. exact (C95_intersect_lemma svd). Qed.
Print Assumptions C95_intersection_example.

Example C95_case : exists svd, main_ray_intersect (fun x => Some x) (fun x => x) svd = Some [mkV3 1 1 0].
Proof.
  destruct (C62_svd_assumption_satisfiable [mkRay (Coords := WorldFrame) (mkV3 1 0 0) (mkV3 0 1 0); mkRay (mkV3 0 1 0) (mkV3 1 0 0)]) as (svd & H & NF).
  exists svd. apply C95_intersection_example; assumption.
Qed.

(** C95, last part: the text of an error tells which error it is. *)
Theorem C95_error_text e e' : error_display e = error_display e' -> e = e'.
Proof. exact (error_text_lemma e e'). Qed.
Print Assumptions C95_error_text.

Example C95_text_case : error_display SvdFailed = "SvdFailed"%string /\ error_display SvdFailed <> error_display InvalidInput.
Proof. split; [reflexivity|discriminate]. Qed.
