(** * TestUtils.v - model of /repo/src/intrinsic_test_utils.rs and of
    [roundtrip_camera] in /repo/src/camera.rs

    [usize] is [nat] up to a maximum [umax].  Subtraction underflow panics, as
    it does with overflow checks on (the default of debug and test builds). *)

From Coq Require Import List Arith.
From Verif Require Import Scalar Linalg Bundles Extrinsics Camera.
Import ListNotations.

Section Model.
Context {T : Type} {O : Ops T}.

(** [usize::MAX] *)
Variable umax : nat.
(** [convert(x as f64)], /repo/src/intrinsic_test_utils.rs 17: not modelled
    further (exact for [x <= 2^53] if [T] has the range); any function here. *)
Variable as_scalar : nat -> T.

(** [a - b] on [usize] *)
Definition usub (a b : nat) : option nat := if Nat.leb b a then Some (a - b) else None.
(** [usize::checked_add] *)
Definition checked_add (a b : nat) : option nat :=
  if Nat.leb (a + b) umax then Some (a + b) else None.

(** num_iter 0.1 [RangeStep<usize>]: the state; [rev] is false, a [usize] is
    never below zero *)
Record RangeStep := mkRange { rs_state : nat; rs_stop : nat; rs_step : nat }.
Definition range_step (start stop step : nat) : RangeStep := mkRange start stop step.
(** num_iter [RangeStep::next] *)
Definition rs_next (r : RangeStep) : option nat * RangeStep :=
  if Nat.ltb (rs_state r) (rs_stop r) then
    let result := rs_state r in
    let state := match checked_add (rs_state r) (rs_step r) with
                 | Some x => x
                 | None => rs_stop r
                 end in
    (Some result, mkRange state (rs_stop r) (rs_step r))
  else (None, r).

(** [for x in r { body }]; [None] also if the loop has not ended after [fuel]
    turns.  The fuel given below is enough whenever the step is positive. *)
Fixpoint for_iter {St} (fuel : nat) (r : RangeStep) (body : nat -> St -> option St) (s : St)
  : option St :=
  match rs_next r with
  | (None, _) => Some s
  | (Some x, r') =>
      match fuel with
      | 0 => None
      | S fuel' => s' <- body x s ;; for_iter fuel' r' body s'
      end
  end.

(** intrinsic_test_utils.rs 8-28; [uv_raws] is a vector of two-element arrays *)
Definition generate_uv_raw (width height step border : nat) : option (Pixels T) :=
  row_stop <- usub height border ;;
  uv_raws <- for_iter row_stop (range_step border row_stop step) (fun row uv_raws =>
    col_stop <- usub width border ;;
    for_iter col_stop (range_step border col_stop step) (fun col uv_raws =>
      Some (uv_raws ++ [mkV2 (as_scalar col) (as_scalar row)])) uv_raws) [] ;;
  data <- for_range 0 (length uv_raws) (fun i data =>
    for_range 0 2 (fun j data =>
      uv <- nth_error uv_raws i ;;
      x <- v2_get uv j ;;
      mat2_set data i j x) data) (repeat (mkV2 o_zero o_zero) (length uv_raws)) ;;
  Some (mkPixels data).

(** nalgebra [Matrix::abs_diff_eq], elementwise *)
Definition pixels_abs_diff_eq (a b : list (V2 T)) (eps : T) : bool :=
  forallb (fun ab => andb (abs_diff_eq (px (fst ab)) (px (snd ab)) eps)
                          (abs_diff_eq (py (fst ab)) (py (snd ab)) eps)) (combine a b).
(** [assert_abs_diff_eq!] *)
Definition assert_abs_diff_eq (a b : list (V2 T)) (eps : T) : option unit :=
  if pixels_abs_diff_eq a b eps then Some tt else None.

(** intrinsic_test_utils.rs 35-55 *)
Definition roundtrip_intrinsics {I} {HI : IntrinsicParameters T I} {HB : Bundle T BundleType}
    (cam : I) (width height step border : nat) (eps : T) : option unit :=
  pixels <- generate_uv_raw width height step border ;;
  camcoords <- pixel_to_camera cam pixels ;;
  camera_coords_points <- point_on_ray camcoords ;;
  pixel_actual <- camera_to_pixel cam camera_coords_points ;;
  assert_abs_diff_eq (pix_data pixels) (pix_data pixel_actual) eps.

(** camera.rs 200-222 *)
Definition roundtrip_camera {I} {HI : IntrinsicParameters T I} {HB : Bundle T BundleType}
    (cam : Camera T I) (width height step border : nat) (eps : T) : option unit :=
  pixels <- generate_uv_raw width height step border ;;
  world_coords <- pixel_to_world cam pixels ;;
  world_coords_points <- point_on_ray world_coords ;;
  pixel_actual <- world_to_pixel cam world_coords_points ;;
  assert_abs_diff_eq (pix_data pixels) (pix_data pixel_actual) eps.

End Model.
