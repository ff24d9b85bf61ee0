(** * RayIntersection.v - model of /repo/src/ray_intersection.rs *)

From Coq Require Import List ZArith.
From Verif Require Import Scalar Linalg Bundles.
Import ListNotations.

(** [nalgebra::linalg::SVD]: [u] and [v_t] are present if they were asked for. *)
Record SVD (F : Type) := mkSVD { svd_u : option (M33 F); svd_s : V3 F; svd_vt : option (M33 F) }.
Arguments mkSVD {F}. Arguments svd_u {F}. Arguments svd_s {F}. Arguments svd_vt {F}.

(** The literal 1e-7 as an f64: 0x1.ad7f29abcaf48p-24. *)
Definition lit_1em7 {F} {OF : Ops F} : F := o_lit 7555786372591432%Z (-76)%Z.

Section Pinv.
Context {F : Type} {OF : Ops F}.
Local Open Scope S_scope.

(** [SVD::recompose]: scale the columns of [u], then multiply by [v_t]; the
    error string is [None]. *)
Definition svd_recompose (d : SVD F) : option (M33 F) :=
  match svd_u d, svd_vt d with
  | Some u, Some vt =>
    let s := svd_s d in
    let us := mkM33 (m00 u * vx s) (m01 u * vy s) (m02 u * vz s)
                    (m10 u * vx s) (m11 u * vy s) (m12 u * vz s)
                    (m20 u * vx s) (m21 u * vy s) (m22 u * vz s) in
    Some (m33_mul us vt)
  | _, _ => None
  end.

(** [SVD::pseudo_inverse(eps)]: invert the singular values above [eps], zero the
    others, recompose, transpose. An [Err] is [None]. *)
Definition svd_pseudo_inverse (d : SVD F) (eps : F) : option (M33 F) :=
  if eps <? o_zero then None
  else
    let f val := if eps <? val then o_one / val else o_zero in
    let s := svd_s d in
    m <- svd_recompose (mkSVD (svd_u d) (mkV3 (f (vx s)) (f (vy s)) (f (vz s))) (svd_vt d)) ;;
    Some (m33_transpose m).

(** ray_intersection.rs 176-185 ([my_pinv]).  [svd_try_new m compute_u compute_v eps niter]
    is [SVD::try_new], a parameter of the model. The [unwrap] is a panic ([None]). *)
Definition my_pinv (svd_try_new : M33 F -> bool -> bool -> F -> nat -> option (SVD F))
    (m : M33 F) : option (result (M33 F)) :=
  match svd_try_new m true true lit_1em7 100%nat with
  | None => Some (Err SvdFailed)
  | Some d => p <- svd_pseudo_inverse d lit_1em7 ;; Some (Ok p)
  end.
End Pinv.

Section Model.
(** [T] is the scalar of the rays, [F] is f64; [to64] is [try_convert::<R,f64>],
    [from64] is [convert::<f64,R>]. *)
Context {T F : Type} {O : Ops T} {OF : Ops F}.
Variable to64 : T -> option F.
Variable from64 : F -> T.
Variable svd_try_new : M33 F -> bool -> bool -> F -> nat -> option (SVD F).
Local Open Scope S_scope.

(** [for (x, o) in xs.iter().zip(out.iter_mut()) { *o = f(x) }] *)
Fixpoint zip_fill {A} (f : A -> T) (xs : list A) (out : list T) : list T :=
  match xs, out with
  | x :: xs', _ :: out' => f x :: zip_fill f xs' out'
  | _, _ => out
  end.

(** [iter.map(|x| try_convert(x).unwrap()).sum()], ray_intersection.rs 15-27 *)
Fixpoint sum_as_f64_acc (acc : F) (xs : list T) : option F :=
  match xs with
  | [] => Some acc
  | x :: xs' => y <- to64 x ;; sum_as_f64_acc (acc + y) xs'
  end.
Definition sum_as_f64 (xs : list T) : option F := sum_as_f64_acc o_zero xs.

(** [a.iter().zip(b.iter()).map(|(a,b)| a * b)] *)
Definition zip_mul (a b : list T) : list T := map (fun ab => fst ab * snd ab) (combine a b).
(** [izip!(t1,t2,t3).map(|(t1,t2,t3)| t1 + t2 + t3)] *)
Definition zip_add3 (a b c : list T) : list T :=
  map (fun t => fst (fst t) + snd (fst t) + snd t) (combine (combine a b) c).

(** ray_intersection.rs 43-174 (numbering of the file: fn starts at line 43) *)
Definition best_intersection_of_rays {Coords} (rays : list (Ray Coords T))
  : option (result (Points Coords T)) :=
  if Nat.ltb (length rays) 2 then Some (Err MinimumTwoRaysNeeded)
  else
    let n := length rays in
    st <- for_range 0 n (fun i st =>
      ray_wc <- nth_error rays i ;;
      let d := ray_direction ray_wc in
      let dir := v3_normalize (mkV3 (vx d) (vy d) (vz d)) in
      line_dirs <- write_row i dir (fst st) ;;
      line_points <- write_row i (ray_center ray_wc) (snd st) ;;
      Some (line_dirs, line_points)) (zeros3 n, zeros3 n) ;;
    let line_dirs := fst st in
    let line_points := snd st in
    let zrow := repeat o_zero n in
    let nx := map vx line_dirs in
    let ny := map vy line_dirs in
    let nz := map vz line_dirs in
    let minusone := o_mone in
    let xxm1 := zip_fill (fun x => powi2 x + minusone) nx zrow in
    let yym1 := zip_fill (fun y => powi2 y + minusone) ny zrow in
    let zzm1 := zip_fill (fun z => powi2 z + minusone) nz zrow in
    let xy := zip_fill (fun p => fst p * snd p) (combine nx ny) zrow in
    let xz := zip_fill (fun p => fst p * snd p) (combine nx nz) zrow in
    let yz := zip_fill (fun p => fst p * snd p) (combine ny nz) zrow in
    SXX <- sum_as_f64 xxm1 ;;
    SYY <- sum_as_f64 yym1 ;;
    SZZ <- sum_as_f64 zzm1 ;;
    SXY <- sum_as_f64 xy ;;
    SXZ <- sum_as_f64 xz ;;
    SYZ <- sum_as_f64 yz ;;
    let S_ := mkM33 SXX SXY SXZ SXY SYY SYZ SXZ SYZ SZZ in
    let px := map vx line_points in
    let py := map vy line_points in
    let pz := map vz line_points in
    CX <- sum_as_f64 (zip_add3 (zip_mul px xxm1) (zip_mul py xy) (zip_mul pz xz)) ;;
    CY <- sum_as_f64 (zip_add3 (zip_mul px xy) (zip_mul py yym1) (zip_mul pz yz)) ;;
    CZ <- sum_as_f64 (zip_add3 (zip_mul px xz) (zip_mul py yz) (zip_mul pz zzm1)) ;;
    let C := mkV3 (from64 CX) (from64 CY) (from64 CZ) in
    pinv <- my_pinv svd_try_new S_ ;;
    match pinv with
    | Err e => Some (Err e)
    | Ok s_f64_pinv =>
      let s_pinv := mkM33
        (from64 (m00 s_f64_pinv)) (from64 (m01 s_f64_pinv)) (from64 (m02 s_f64_pinv))
        (from64 (m10 s_f64_pinv)) (from64 (m11 s_f64_pinv)) (from64 (m12 s_f64_pinv))
        (from64 (m20 s_f64_pinv)) (from64 (m21 s_f64_pinv)) (from64 (m22 s_f64_pinv)) in
      let r := m33_mulv s_pinv C in
      result <- write_row 0 r (zeros3 1) ;;
      Some (Ok (mkPoints result))
    end.

End Model.
