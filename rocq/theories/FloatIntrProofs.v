(** * FloatIntrProofs.v - IEEE behaviour of intrinsics and rays (C17, C18, C24) *)

From Coq Require Import ZArith Reals List Bool Lra Lia.
From Flocq Require Import Core BinarySingleNaN.
From Verif Require Import Scalar Linalg Bundles Perspective Orthographic Rows Spec FloatBase IntrinsicsProofs.
Import ListNotations.

Section FloatIntr.
Variables (prec emax : Z) (Hp : Prec_gt_0 prec) (He : Prec_lt_emax prec emax).
Variables fsin fcos : binary_float prec emax -> binary_float prec emax.
Local Notation F := (binary_float prec emax).
Local Hint Extern 0 (Ops (binary_float prec emax)) =>
  exact (B_ops prec emax Hp He fsin fcos) : typeclass_instances.
Local Notation nan := (B754_nan : F).

Lemma div_zn_not_finite (x y : F) : zn prec emax y -> is_finite (o_div x y) = false.
Proof.
  intros [[s ->]| ->].
  - destruct x; reflexivity.
  - rewrite div_nan_r. reflexivity.
Qed.

Lemma C17_lemma (k : PerspectiveParams F) x y s :
  exists u v, camera_to_pixel (perspective_from k) (mkPoints [mkV3 x y (B754_zero s)])
              = Some (mkPixels [mkV2 u v]) /\ is_finite u = false /\ is_finite v = false.
Proof.
  cbn [camera_to_pixel Perspective_Intrinsics]. rewrite persp_camera_to_pixel_rows. cbn [map pts_data].
  do 2 eexists. split; [reflexivity|].
  assert (Z : forall t, zn prec emax (B754_zero t)) by (intros t; left; now exists t).
  assert (D : zn prec emax (vz (m34_mulv (ip_cache_p (perspective_from k))
                 (v3_to_homogeneous (mkV3 x y (B754_zero s)))))).
  { unfold m34_mulv, v3_to_homogeneous, perspective_from; cbn [ip_cache_p p20 p21 p22 p23 vx vy vz wx wy wz ww].
    repeat apply zn_add.
    - apply zn_mul_l, Z.
    - apply zn_mul_l, Z.
    - apply zn_mul_r, Z.
    - apply zn_mul_l, Z. }
  split; apply div_zn_not_finite, D.
Qed.

Lemma Beqb_refl_finite (x : F) : is_finite x = true -> Beqb x x = true.
Proof.
  intros H. rewrite Beqb_correct by assumption. now apply Req_bool_true.
Qed.
Lemma eqb_zero : o_eqb (o_zero : F) o_zero = true.
Proof. reflexivity. Qed.
Lemma eqb_one : o_eqb (o_one : F) o_one = true.
Proof. apply Beqb_refl_finite. apply is_finite_Bone. Qed.

Lemma C24_lemma Coords :
  (forall (c : V3 F) s0 s1 s2 dist before after,
     exists lb la,
       point_on_ray_at_distance (mkRayBundle (Coords := Coords) before (mkSO c)) dist = Some (mkPoints lb) /\
       point_on_ray_at_distance (mkRayBundle (Coords := Coords) after (mkSO c)) dist = Some (mkPoints la) /\
       point_on_ray_at_distance
         (mkRayBundle (Coords := Coords)
            (before ++ mkV3 (B754_zero s0) (B754_zero s1) (B754_zero s2) :: after) (mkSO c)) dist
       = Some (mkPoints (lb ++ mkV3 nan nan nan :: la))) /\
  (forall s0 s1 s2 dist (cs : list (V3 F)),
     point_on_ray_at_distance
       (mkRayBundle (Coords := Coords) cs (mkSD (mkV3 (B754_zero s0) (B754_zero s1) (B754_zero s2)))) dist
     = Some (mkPoints (map (fun _ => mkV3 nan nan nan) cs))).
Proof.
  assert (G : forall s0 s1 s2 dist t, o_mul (o_div dist (o_sqrt (o_add (o_add
       (o_mul (B754_zero s0) (B754_zero s0)) (o_mul (B754_zero s1) (B754_zero s1)))
       (o_mul (B754_zero s2) (B754_zero s2))))) (B754_zero t : F) = nan).
  { intros s0 s1 s2 dist t.
    match goal with |- context [o_sqrt ?x] => assert (Z : is_zero prec emax (o_sqrt x)) end.
    { apply zero_sqrt. repeat apply zero_add_zero; apply zero_mul_zero; eexists; reflexivity. }
    destruct Z as [z ->]. destruct dist; reflexivity. }
  split.
  - intros c s0 s1 s2 dist before after. do 2 eexists.
    unfold point_on_ray_at_distance; cbn -[so_point_on_ray_at_distance].
    rewrite !so_at_distance_rows. repeat split; try reflexivity.
    do 2 f_equal. rewrite map_app. cbn [map]. do 2 f_equal.
    unfold so_at_distance_row; cbn [vx vy vz so_center]. rewrite !G. now nanrw.
  - intros. unfold point_on_ray_at_distance; cbn -[sd_point_on_ray_at_distance].
    rewrite sd_at_distance_rows. do 2 f_equal. apply map_ext. intros a.
    unfold sd_at_distance_row; cbn [vx vy vz sd_direction]. rewrite !G. now nanrw.
Qed.
End FloatIntr.
