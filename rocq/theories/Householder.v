(** * Householder.v - nalgebra's QR decomposition

    Transcription of [nalgebra::linalg::QR::{new, q, r}],
    [nalgebra::linalg::householder::{reflection_axis_mut, clear_column_unchecked}]
    and [nalgebra::geometry::Reflection::reflect_with_sign] for real scalars,
    called from /repo/src/camera.rs 239-240.  A matrix is the list of its
    columns, a (view of a) column is the list of its entries. *)

From Coq Require Import List Arith Bool.
From Verif Require Import Scalar Linalg.
Import ListNotations.

Section QR.
Context {T : Type} {O : Ops T}.
Local Open Scope S_scope.

(** [Matrix::dotc] on dynamically sized columns with fewer than 8 rows. *)
Fixpoint dot_acc (acc : T) (a b : list T) : T :=
  match a, b with
  | x :: a', y :: b' => dot_acc (acc + x * y) a' b'
  | _, _ => acc
  end.
Definition ldot (a b : list T) : T := dot_acc o_zero a b.

(** [ComplexField::to_exp] for real scalars: (modulus, sign). *)
Definition to_exp (x : T) : T * T :=
  if o_zero <=? x then (x, o_one) else (- x, - o_one).

(** [reflection_axis_mut]: the new contents of the column (the reflection axis),
    the signed norm, and whether the column was nonzero. *)
Definition reflection_axis_mut (column : list T) : list T * T * bool :=
  match column with
  | [] => ([], o_zero, false)
  | c0 :: rest =>
    let sq_norm := ldot column column in
    let norm := o_sqrt sq_norm in
    let (modulus, sign) := to_exp c0 in
    let signed_norm := sign * norm in
    let factor := (sq_norm + modulus * norm) * o_two in
    let column' := (c0 + signed_norm) :: rest in
    if negb (o_eqb factor o_zero) then
      let c1 := map (fun x => x / o_sqrt factor) column' in
      let n1 := o_sqrt (ldot c1 c1) in
      (map (fun x => x / n1) c1, - signed_norm, true)
    else (column', signed_norm, false)
  end.

(** [Reflection::reflect_with_sign] on one column, with bias 0. *)
Definition reflect_with_sign (axis : list T) (sign : T) (column : list T) : list T :=
  let m_two := sign * o_mtwo in
  let factor := (ldot axis column - o_zero) * m_two in
  map (fun xy => factor * fst xy + sign * snd xy) (combine axis column).

(** Act on the rows [i..] of a column. *)
Definition on_rows_from (i : nat) (f : list T -> list T) (column : list T) : list T :=
  firstn i column ++ f (skipn i column).

(** Act on the columns of a matrix, with their indices. *)
Fixpoint map_cols (j : nat) (f : nat -> list T -> list T) (cols : list (list T)) : list (list T) :=
  match cols with
  | [] => []
  | c :: cs => f j c :: map_cols (S j) f cs
  end.

(** [clear_column_unchecked(matrix, icol, 0, None)]. *)
Definition clear_column (cols : list (list T)) (icol : nat) : list (list T) * T :=
  let '(axis, reflection_norm, not_zero) :=
    reflection_axis_mut (skipn icol (nth icol cols [])) in
  let sign := o_signum reflection_norm in
  (map_cols 0 (fun j c =>
     if Nat.eqb j icol then on_rows_from icol (fun _ => axis) c
     else if andb (Nat.ltb icol j) not_zero
          then on_rows_from icol (reflect_with_sign axis sign) c
          else c) cols,
   reflection_norm).

Record qr_dec := mkQR { qr_cols : list (list T); qr_diag : list T }.

(** [QR::new] for a 3x3 matrix. *)
Definition qr_new (cols : list (list T)) : qr_dec :=
  let (c0, d0) := clear_column cols 0 in
  let (c1, d1) := clear_column c0 1 in
  let (c2, d2) := clear_column c1 2 in
  mkQR c2 [d0; d1; d2].

Definition m33_of_cols (cols : list (list T)) : M33 T :=
  let e i j := nth i (nth j cols []) o_zero in
  mkM33 (e 0 0) (e 0 1) (e 0 2) (e 1 0) (e 1 1) (e 1 2) (e 2 0) (e 2 1) (e 2 2)%nat.
Definition cols_of_m33 (m : M33 T) : list (list T) :=
  [[m00 m; m10 m; m20 m]; [m01 m; m11 m; m21 m]; [m02 m; m12 m; m22 m]].

(** [QR::r]: upper triangle, with the moduli of [diag] on the diagonal. *)
Definition qr_r (d : qr_dec) : M33 T :=
  let u := m33_of_cols (qr_cols d) in
  let g i := o_abs (nth i (qr_diag d) o_zero) in
  mkM33 (g 0%nat) (m01 u) (m02 u)
        o_zero (g 1%nat) (m12 u)
        o_zero o_zero (g 2%nat).

(** One iteration of the loop of [QR::q]. *)
Definition qr_q_step (d : qr_dec) (i : nat) (res : list (list T)) : list (list T) :=
  let axis := skipn i (nth i (qr_cols d) []) in
  let sign := o_signum (nth i (qr_diag d) o_zero) in
  map_cols 0 (fun j c =>
    if Nat.leb i j then on_rows_from i (reflect_with_sign axis sign) c else c) res.

(** [QR::q]. *)
Definition qr_q (d : qr_dec) : M33 T :=
  let id := [[o_one; o_zero; o_zero]; [o_zero; o_one; o_zero]; [o_zero; o_zero; o_one]] in
  m33_of_cols (qr_q_step d 0 (qr_q_step d 1 (qr_q_step d 2 id))).

End QR.
