(** * ExamplesProofs.v - the output of the example programs (C95) *)

From Coq Require Import List ZArith Reals Lra Lia.
From Flocq Require Import Core BinarySingleNaN.
From Verif Require Import Scalar Linalg Bundles Extrinsics Perspective Camera RayIntersection Examples Equality
  Spec SpecIsect SpecFloatErr Rows RealBase VecLemmas IsectProofs PropIsect.
Import ListNotations.

Section F64.
Variables fsin fcos : f64 -> f64.
Local Hint Extern 0 (Ops f64) => exact (f64_ops fsin fcos) : typeclass_instances.
Local Notation num z := (@o_lit f64 (f64_ops fsin fcos) z%Z 0%Z).
Definition opt_num (x : option f64) (z : Z) : bool := match x with Some x => Beqb x (num z) | None => false end.
Lemma opt_num_eq x z : Z.ltb 0 z = true -> is_finite_strict (num z : f64) = true -> opt_num x z = true -> x = Some (num z).
Proof.
  destruct x as [x|]; [|discriminate]. cbn [opt_num]. intros _ S E. f_equal.
  assert (Fn : is_finite (num z : f64) = true) by (destruct (num z : f64); try discriminate; reflexivity).
  destruct (is_finite x) eqn:Fx.
  - rewrite Beqb_correct in E by assumption. revert E. case Req_bool_spec; [|discriminate]. intros E _.
    apply B2R_inj; try assumption. destruct x as [s|s| |s m e B]; try discriminate; [|reflexivity].
    exfalso. destruct (num z : f64) as [t|t| |t m e B]; try discriminate. cbn in E. symmetry in E. apply eq_0_F2R in E. destruct t; discriminate.
  - exfalso. destruct x as [s|s| |s m e B]; try discriminate; destruct (num z : f64) as [t|t| |t m e B]; try discriminate.
    all: destruct s; discriminate.
Qed.
Lemma C95_main_lemma :
  fsin (o_pi64 / o_two)%S = o_one -> fcos (o_pi64 / o_two)%S = o_lit 4967757600021511%Z (-106)%Z ->
  main_3d_to_2d = Some [(mkV3 (num 1) (num 0) (num 0), mkV2 (num 640) (num 480));
                        (mkV3 (num 0) (num 1) (num 0), mkV2 (num 650) (num 480))].
Proof.
  intros Hs Hc.
  set (cam := camera_new (perspective_from (mkPP (num 100) (num 100) (num 0) (num 640) (num 480)))
    (from_view (mkV3 (num 10) (num 0) (num 0)) (mkV3 (num 0) (num 0) (num 0)) (v3_normalize (mkV3 (num 0) (num 0) (num 1))))).
  assert (G : forall a b, exists p p', world_to_pixel cam (mkPoints [a; b]) = Some (mkPixels [p; p'])).
  { intros a b. unfold cam, camera_new. rewrite persp_world_to_pixel_rows. cbn [pts_data map]. eauto. }
  destruct (G (mkV3 (num 1) (num 0) (num 0)) (mkV3 (num 0) (num 1) (num 0))) as (p & p' & E).
  unfold main_3d_to_2d. cbv zeta. fold cam. rewrite E. cbn [bind pts_data length for_range nth_error pix_data app].
  assert (V : let r := world_to_pixel cam (mkPoints [mkV3 (num 1) (num 0) (num 0); mkV3 (num 0) (num 1) (num 0)]) in
    let at_ f i := opt_num (match r with Some l => option_map f (nth_error (pix_data l) i) | None => None end) in
    (at_ px 0%nat 640%Z && at_ py 0%nat 480%Z && at_ px 1%nat 650%Z && at_ py 1%nat 480%Z)%bool = true).
  { clear p p' E G. unfold cam, from_view, from_view_with_roll, q_from_axis_angle. cbv zeta.
    change (o_sin (o_pi64 / o_two)%S) with (fsin (o_pi64 / o_two)%S). change (o_cos (o_pi64 / o_two)%S) with (fcos (o_pi64 / o_two)%S).
    rewrite Hs, Hc. vm_compute. reflexivity. }
  rewrite E in V. cbv zeta in V. cbn [pix_data nth_error option_map] in V. rewrite !Bool.andb_true_iff in V. destruct V as (((V1 & V2) & V3) & V4).
  destruct p as [a b], p' as [a' b']. cbn [px py] in V1, V2, V3, V4.
  apply opt_num_eq in V1; [|vm_compute; reflexivity|vm_compute; reflexivity].
  apply opt_num_eq in V2; [|vm_compute; reflexivity|vm_compute; reflexivity].
  apply opt_num_eq in V3; [|vm_compute; reflexivity|vm_compute; reflexivity].
  apply opt_num_eq in V4; [|vm_compute; reflexivity|vm_compute; reflexivity].
 injection V1 as ->. injection V2 as ->. injection V3 as ->. injection V4 as ->. reflexivity.
Qed.
End F64.
Local Open Scope R_scope.

Lemma C95_intersect_lemma svd : svd_sound svd -> 
  let rays := [mkRay (Coords := WorldFrame) (mkV3 1 0 0) (mkV3 0 1 0); mkRay (mkV3 0 1 0) (mkV3 1 0 0)] in
  best_intersection_of_rays (fun x => Some x) (fun x => x) svd rays <> Some (Err SvdFailed) ->
  main_ray_intersect (fun x => Some x) (fun x => x) svd = Some [mkV3 1 1 0].
Proof.
  intros H rays NF.
  assert (N : nonzero_dirs rays). { repeat constructor; cbn; unfold vO; intros E; apply V3_inv in E; lra. }
  assert (E : best_intersection_of_rays (fun x => Some x) (fun x => x) svd rays = Some (Ok (mkPoints [mkV3 1 1 0]))).
  { apply C41_lemma; try assumption.
    - simpl; lia.
    - apply (C40_two_rays_suffice [] [] [] _ _ N).
      unfold cosine. cbn [ray_direction]. replace (vdot (mkV3 0 1 0) (mkV3 1 0 0)) with 0 by (ru_spec; ring).
      unfold Rdiv. rewrite Rmult_0_l, Rabs_R0. pose proof cutoff_lt. lra.
    - repeat constructor; cbn [ray_center ray_direction]; [exists 1|exists 1]; apply V3_eq; ru_spec; field. }
  unfold main_ray_intersect. cbv zeta.
  match goal with |- context [best_intersection_of_rays _ _ _ ?l] => replace l with rays end.
  - rewrite E. reflexivity.
  - assert (L : forall z, @o_lit R R_ops z 0 = IZR z) by (intros z; cbn; ring). rewrite !L. reflexivity.
Qed.

Lemma error_text_lemma e e' : error_display e = error_display e' -> e = e'.
Proof. destruct e, e'; try reflexivity; discriminate. Qed.
