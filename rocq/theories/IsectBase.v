(** * IsectBase.v - what best_intersection_of_rays computes *)

From Coq Require Import List Arith Lia Bool ZArith.
From Verif Require Import Scalar Linalg Bundles RayIntersection Rows.
Import ListNotations.

Lemma for_rows2 {A B C} (g : A -> B) (h : A -> C)
    (body : nat -> list B * list C -> option (list B * list C)) (z : B) (w : C) (input : list A) :
  (forall i a pre x suf pre' x' suf', nth_error input i = Some a -> length pre = i -> length pre' = i ->
     body i (pre ++ x :: suf, pre' ++ x' :: suf') = Some (pre ++ g a :: suf, pre' ++ h a :: suf')) ->
  for_range 0 (length input) body (repeat z (length input), repeat w (length input))
  = Some (map g input, map h input).
Proof.
  intros H.
  assert (G : forall rest done, input = done ++ rest ->
     for_range (length done) (length rest) body
       (map g done ++ repeat z (length rest), map h done ++ repeat w (length rest))
     = Some (map g done ++ map g rest, map h done ++ map h rest)).
  { induction rest as [|a rest IH]; intros done Hin; simpl.
    - now rewrite !app_nil_r.
    - rewrite (H _ a).
      + simpl. specialize (IH (done ++ [a])).
        rewrite app_length in IH; simpl in IH; rewrite Nat.add_1_r in IH.
        rewrite !map_app in IH; simpl in IH.
        rewrite <- !app_assoc in IH; simpl in IH. now apply IH.
      + rewrite Hin. rewrite nth_error_app2 by lia. now rewrite Nat.sub_diag.
      + now rewrite map_length.
      + now rewrite map_length. }
  exact (G input [] eq_refl).
Qed.

Lemma zip_fill_map {T A} (f : A -> T) (xs : list A) z n : length xs = n ->
  zip_fill f xs (repeat z n) = map f xs.
Proof. intros <-. induction xs as [|x xs IH]; simpl; [reflexivity|now rewrite IH]. Qed.

Lemma combine_map {A B C} (f : A -> B) (g : A -> C) l : combine (map f l) (map g l) = map (fun x => (f x, g x)) l.
Proof. induction l as [|a l IH]; simpl; [reflexivity|now rewrite IH]. Qed.

Lemma bind_ext {A B} (e : option A) (f g : A -> option B) : (forall a, f a = g a) -> bind e f = bind e g.
Proof. intros H. destruct e; simpl; [apply H|reflexivity]. Qed.

Section Gen.
Context {T F : Type} {O : Ops T} {OF : Ops F}.
Variable to64 : T -> option F.
Variable from64 : F -> T.
Variable svd : M33 F -> bool -> bool -> F -> nat -> option (SVD F).
Local Open Scope S_scope.

(** The normalized direction and the summands of one ray. *)
Definition rdir {Coords} (r : Ray Coords T) : V3 T := v3_normalize (ray_direction r).
Definition t_xx {Coords} (r : Ray Coords T) := powi2 (vx (rdir r)) + o_mone.
Definition t_yy {Coords} (r : Ray Coords T) := powi2 (vy (rdir r)) + o_mone.
Definition t_zz {Coords} (r : Ray Coords T) := powi2 (vz (rdir r)) + o_mone.
Definition t_xy {Coords} (r : Ray Coords T) := vx (rdir r) * vy (rdir r).
Definition t_xz {Coords} (r : Ray Coords T) := vx (rdir r) * vz (rdir r).
Definition t_yz {Coords} (r : Ray Coords T) := vy (rdir r) * vz (rdir r).
Definition t_cx {Coords} (r : Ray Coords T) :=
  let p := ray_center r in vx p * t_xx r + vy p * t_xy r + vz p * t_xz r.
Definition t_cy {Coords} (r : Ray Coords T) :=
  let p := ray_center r in vx p * t_xy r + vy p * t_yy r + vz p * t_yz r.
Definition t_cz {Coords} (r : Ray Coords T) :=
  let p := ray_center r in vx p * t_xz r + vy p * t_yz r + vz p * t_zz r.

Lemma isect_unfold {Coords} (rays : list (Ray Coords T)) : (2 <= length rays)%nat ->
  best_intersection_of_rays to64 from64 svd rays =
  (SXX <- sum_as_f64 to64 (map t_xx rays) ;;
   SYY <- sum_as_f64 to64 (map t_yy rays) ;;
   SZZ <- sum_as_f64 to64 (map t_zz rays) ;;
   SXY <- sum_as_f64 to64 (map t_xy rays) ;;
   SXZ <- sum_as_f64 to64 (map t_xz rays) ;;
   SYZ <- sum_as_f64 to64 (map t_yz rays) ;;
   CX <- sum_as_f64 to64 (map t_cx rays) ;;
   CY <- sum_as_f64 to64 (map t_cy rays) ;;
   CZ <- sum_as_f64 to64 (map t_cz rays) ;;
   pinv <- my_pinv svd (mkM33 SXX SXY SXZ SXY SYY SYZ SXZ SYZ SZZ) ;;
   match pinv with
   | Err e => Some (Err e)
   | Ok m =>
     Some (Ok (mkPoints [m33_mulv (mkM33
        (from64 (m00 m)) (from64 (m01 m)) (from64 (m02 m))
        (from64 (m10 m)) (from64 (m11 m)) (from64 (m12 m))
        (from64 (m20 m)) (from64 (m21 m)) (from64 (m22 m)))
        (mkV3 (from64 CX) (from64 CY) (from64 CZ))]))
   end).
Proof.
  intros L. unfold best_intersection_of_rays.
  replace (Nat.ltb (length rays) 2) with false by (symmetry; apply Nat.ltb_ge; lia).
  unfold zeros3. rewrite (for_rows2 rdir ray_center).
  2:{ intros i a pre x suf pre' x' suf' Ha Hp Hp'. rewrite Ha. cbn [bind fst snd].
      rewrite (write_row_mid _ _ _ _ _ Hp). cbn [bind]. rewrite (write_row_mid _ _ _ _ _ Hp'). cbn [bind].
      unfold rdir. now destruct (ray_direction a). }
  cbn [bind fst snd]. rewrite !map_map, !combine_map.
  rewrite !zip_fill_map by now rewrite map_length.
  rewrite !map_map. unfold zip_add3, zip_mul. rewrite !combine_map, !map_map, !combine_map, !map_map.
  cbn [fst snd].
  do 10 (apply bind_ext; intros ?).
  match goal with |- match ?r with _ => _ end = _ => destruct r; [|reflexivity] end.
  unfold zeros3. cbn [repeat]. pose proof (fun v => write_row_mid [] (v3_zero (T := T)) v [] 0 eq_refl) as W. cbn [app] in W. now rewrite W.
Qed.
End Gen.
