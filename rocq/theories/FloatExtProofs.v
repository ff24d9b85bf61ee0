(** * FloatExtProofs.v - IEEE behaviour of degenerate extrinsics (C12) *)

From Coq Require Import ZArith Reals List Bool Lra.
From Flocq Require Import Core BinarySingleNaN.
From Verif Require Import Scalar Linalg Bundles Extrinsics Rows Spec FloatBase.
Import ListNotations.

Section FloatExt.
Variables (prec emax : Z) (Hp : Prec_gt_0 prec) (He : Prec_lt_emax prec emax).
Variables fsin fcos : binary_float prec emax -> binary_float prec emax.
Local Notation F := (binary_float prec emax).
Local Hint Extern 0 (Ops (binary_float prec emax)) =>
  exact (B_ops prec emax Hp He fsin fcos) : typeclass_instances.
Local Notation nan := (B754_nan : F).
Local Notation nan3 := (mkV3 nan nan nan).
Local Notation nan4 := (mkQuat nan nan nan nan).

Lemma normalize_degenerate (v : V3 F) :
  (is_zero _ _ (vx v) \/ vx v = nan) -> (is_zero _ _ (vy v) \/ vy v = nan) ->
  (is_zero _ _ (vz v) \/ vz v = nan) -> v3_normalize v = nan3.
Proof.
  destruct v as [x y z]; cbn [vx vy vz]; intros Hx Hy Hz.
  unfold v3_normalize, v3_unscale, v3_norm, v3_norm_squared, v3_dot; cbn [vx vy vz].
  destruct Hx as [Hx| ->]; [|now nanrw].
  destruct Hy as [Hy| ->]; [|now nanrw].
  destruct Hz as [Hz| ->]; [|now nanrw].
  match goal with |- context [o_sqrt ?s] => set (n := o_sqrt s); assert (Z : is_zero _ _ n) end.
  { apply zero_sqrt. repeat apply zero_add_zero; apply zero_mul_zero; assumption. }
  f_equal; now apply zero_div_zero.
Qed.

Lemma from_view_degenerate (c u : V3 F) : e_rquat (from_view c c u) = nan4.
Proof.
  unfold from_view, from_view_with_roll.
  rewrite (normalize_degenerate (v3_sub c c)) by (destruct c; cbn; apply (sub_self prec emax Hp He fsin fcos)).
  unfold from_rotation_and_camcenter; cbn [e_rquat].
  unfold q_look_at_lh, rot_face_towards, v3_normalize, v3_unscale, v3_norm, v3_norm_squared, v3_dot, v3_cross.
  cbn [vx vy vz]. nanrw.
  unfold q_from_rotation_matrix; cbn [m00 m01 m02 m10 m11 m12 m20 m21 m22]. nanrw. cbn [andb].
  unfold q_inverse, q_from_axis_angle, q_mul; cbn [vx vy vz qi qj qk qw]. nanrw. reflexivity.
Qed.

Lemma C12_lemma (c u : V3 F) :
  iso_rot (pose (from_view c c u)) = nan4 /\
  (forall pts, world_to_camera (from_view c c u) (mkPoints pts)
               = Some (mkPoints (map (fun _ => nan3) pts))).
Proof.
  assert (E := from_view_degenerate c u).
  assert (P : iso_rot (pose (from_view c c u)) = nan4) by (rewrite <- E; reflexivity).
  split; [exact P|]. intros pts. rewrite world_to_camera_rows. do 2 f_equal. apply map_ext. intros [x y z].
  unfold pose in P. unfold iso_transform_point. rewrite P.
  unfold q_rotate, q_vec, v3_add, v3_scale, v3_cross; cbn [qi qj qk qw vx vy vz]. nanrw. reflexivity.
Qed.

(** ** Looking along the up axis (C58) *)
Definition zn2 (i : nat) (v : V3 F) : Prop :=
  match i with
  | 0%nat => zn prec emax (vy v) /\ zn prec emax (vz v)
  | 1%nat => zn prec emax (vx v) /\ zn prec emax (vz v)
  | _ => zn prec emax (vx v) /\ zn prec emax (vy v)
  end.
Lemma zn2_normalize i v : zn2 i v -> zn2 i (v3_normalize v).
Proof.
  unfold v3_normalize, v3_unscale. destruct i as [|[|i]]; cbn [zn2 vx vy vz];
    intros [A B]; split; now apply zn_div_l.
Qed.
Lemma zn2_cross i a b : zn2 i a -> zn2 i b -> v3_normalize (v3_cross a b) = nan3.
Proof.
  intros A B. apply normalize_degenerate; unfold v3_cross; cbn [vx vy vz];
  destruct i as [|[|i]]; cbn [zn2] in A, B; destruct A, B; apply zn_sub;
  first [apply zn_mul_l; assumption | apply zn_mul_r; assumption].
Qed.
Lemma view_along_up i (c l u : V3 F) : zn2 i (v3_sub l c) -> zn2 i u ->
  e_rquat (from_view c l u) = nan4.
Proof.
  intros A B. unfold from_view, from_view_with_roll, from_rotation_and_camcenter; cbn [e_rquat].
  unfold q_look_at_lh, rot_face_towards.
  rewrite (zn2_cross i) by (try assumption; now apply zn2_normalize, zn2_normalize).
  set (z := v3_normalize (v3_normalize (v3_sub l c))). clearbody z.
  set (w := v3_normalize (v3_sub l c)). clearbody w.
  unfold v3_normalize, v3_unscale, v3_norm, v3_norm_squared, v3_dot, v3_cross.
  cbn [vx vy vz]. nanrw.
  unfold q_from_rotation_matrix; cbn [m00 m01 m02 m10 m11 m12 m20 m21 m22]. nanrw. cbn [andb].
  nanrw.
  unfold q_inverse, q_from_axis_angle, q_mul; cbn [vx vy vz qi qj qk qw]. nanrw. reflexivity.
Qed.

Lemma C58_lemma (c l u : V3 F) :
  ((vx l = vx c /\ vx u = B754_zero false /\ vy l = vy c /\ vy u = B754_zero false) \/
   (vx l = vx c /\ vx u = B754_zero false /\ vz l = vz c /\ vz u = B754_zero false) \/
   (vy l = vy c /\ vy u = B754_zero false /\ vz l = vz c /\ vz u = B754_zero false)) ->
  iso_rot (pose (from_view c l u)) = nan4 /\
  (forall pts, world_to_camera (from_view c l u) (mkPoints pts)
               = Some (mkPoints (map (fun _ => nan3) pts))).
Proof.
  intros H.
  assert (Z0 : zn prec emax (B754_zero false)) by (left; now exists false).
  assert (E : e_rquat (from_view c l u) = nan4).
  { destruct H as [(A & B & C & D)|[(A & B & C & D)|(A & B & C & D)]].
    - apply (view_along_up 2); cbn [zn2]; unfold v3_sub; cbn [vx vy vz]; rewrite ?A, ?B, ?C, ?D;
        split; try exact Z0; apply zn_sub_self.
    - apply (view_along_up 1); cbn [zn2]; unfold v3_sub; cbn [vx vy vz]; rewrite ?A, ?B, ?C, ?D;
        split; try exact Z0; apply zn_sub_self.
    - apply (view_along_up 0); cbn [zn2]; unfold v3_sub; cbn [vx vy vz]; rewrite ?A, ?B, ?C, ?D;
        split; try exact Z0; apply zn_sub_self. }
  assert (P : iso_rot (pose (from_view c l u)) = nan4) by (rewrite <- E; reflexivity).
  split; [exact P|]. intros pts. rewrite world_to_camera_rows. do 2 f_equal. apply map_ext. intros [x y z].
  unfold pose in P. unfold iso_transform_point. rewrite P.
  unfold q_rotate, q_vec, v3_add, v3_scale, v3_cross; cbn [qi qj qk qw vx vy vz]. nanrw. reflexivity.
Qed.
End FloatExt.
