(** * SymEigen.v - nalgebra's singular value decomposition of a 3x3 matrix

    [nalgebra::linalg::SVD::try_new] of a [Matrix3] (called from
    /repo/src/ray_intersection.rs 178) is [svd_ordered3]: eigenvectors [V] of
    [m^T m], then the QR decomposition of [m V].  This file transcribes, from knowledge of
    nalgebra 0.33, [svd3::svd_ordered3], [SymmetricEigen::{do_decompose,
    delimit_subproblem}], [SymmetricTridiagonal::{new, unpack}],
    [householder::assemble_q], [GivensRotation::{cancel_y, try_new, rotate_rows}],
    [wilkinson_shift] and [compute_2x2_eigvals] for real scalars and dimension 3.
    nalgebra is not part of /repo.  [None] is a panic. *)

From Coq Require Import ZArith List Arith Bool.
From Verif Require Import Scalar Linalg Householder RayIntersection.
Import ListNotations.

Section Model.
Context {T : Type} {O : Ops T}.
Local Open Scope S_scope.
Local Notation half := (o_lit 1%Z (-1)%Z).

(** ** Givens rotations: (c, s) stands for [[c, -s], [s, c]] *)
(** [GivensRotation::cancel_y]: the rotation and the signed norm; nothing to do if [y] is zero *)
Definition cancel_y (v : V2 T) : option (T * T * T) :=
  if negb (o_eqb (py v) o_zero) then
    let (mod0, sign0) := to_exp (px v) in
    let denom := o_sqrt (mod0 * mod0 + py v * py v) in
    Some (mod0 / denom, (- py v) / (sign0 * denom), sign0 * denom)
  else None.
(** [GivensRotation::try_new] *)
Definition givens_try_new (c s eps : T) : option (T * T) :=
  let (mod0, sign0) := to_exp c in
  let denom := o_sqrt (mod0 * mod0 + s * s) in
  if eps <? denom then
    let norm := sign0 * denom in
    Some (mod0 / denom, s / norm)
  else None.
(** [rotate_rows] of the columns [i] and [i + 1] *)
Definition rotate_rows (c s : T) (i : nat) (q : M33 T) : option (M33 T) :=
  for_range 0 3 (fun j q =>
    a <- m33_get q j i ;;
    b <- m33_get q j (i + 1) ;;
    q <- m33_set q j i (a * c + s * b) ;;
    m33_set q j (i + 1) ((- s) * a + b * c)) q.

(** ** Tridiagonalization.  [SymmetricTridiagonal::new] reads and writes the lower triangle. *)
(** the block of rows and columns 1, 2: (m11, m21, m22) after the first reflection *)
Definition tridiag_block (axis : list T) (b : T * T * T) : T * T * T :=
  let '(a11, a21, a22) := b in
  match axis with
  | [x; y] =>
    let p0 := o_two * (a11 * x + a21 * y) in
    let p1 := o_two * (a21 * x + a22 * y) in
    let dot := x * p0 + y * p1 in
    let '(a11, a21, a22) := ((- o_one) * x * p0 + a11, (- o_one) * x * p1 + a21, (- o_one) * y * p1 + a22) in
    let '(a11, a21, a22) := ((- o_one) * p0 * x + a11, (- o_one) * p0 * y + a21, (- o_one) * p1 * y + a22) in
    let d2 := dot * o_two in
    (d2 * x * x + a11, d2 * x * y + a21, d2 * y * y + a22)
  | _ => b
  end.
(** the block of row and column 2 after the second reflection *)
Definition tridiag_last (axis : list T) (a22 : T) : T :=
  match axis with
  | [z] =>
    let p := o_two * (a22 * z) in
    let dot := z * p in
    let a22 := (- o_one) * z * p + a22 in
    let a22 := (- o_one) * p * z + a22 in
    (dot * o_two) * z * z + a22
  | _ => a22
  end.
(** [SymmetricTridiagonal::new(m).unpack()]: Q, the diagonal, the moduli beside it *)
Definition tridiagonalize (m : M33 T) : M33 T * V3 T * V2 T :=
  let '(axis0, norm0, nz0) := reflection_axis_mut [m10 m; m20 m] in
  let '(a11, a21, a22) := if nz0 : bool then tridiag_block axis0 (m11 m, m21 m, m22 m) else (m11 m, m21 m, m22 m) in
  let '(axis1, norm1, nz1) := reflection_axis_mut [a21] in
  let a22 := if nz1 : bool then tridiag_last axis1 a22 else a22 in
  let id := [[o_one; o_zero; o_zero]; [o_zero; o_one; o_zero]; [o_zero; o_zero; o_one]] in
  let r1 := map_cols 0 (fun j c => if Nat.leb 1 j then on_rows_from 2 (reflect_with_sign axis1 (o_signum norm1)) c else c) id in
  let r0 := map_cols 0 (fun j c => on_rows_from 1 (reflect_with_sign axis0 (o_signum norm0)) c) r1 in
  (m33_of_cols r0, mkV3 (m00 m) a11 a22, mkV2 (o_abs norm0) (o_abs norm1)).

(** ** The iteration *)
(** [wilkinson_shift] *)
Definition wilkinson_shift (tmm tnn tmn : T) : T :=
  let sq_tmn := tmn * tmn in
  if negb (o_eqb sq_tmn o_zero) then
    let d := (tmm - tnn) * half in
    tnn - sq_tmn / (d + o_signum d * o_sqrt (d * d + sq_tmn))
  else tnn.
(** [compute_2x2_eigvals] *)
Definition eigvals_2x2 (h00 h01 h10 h11 : T) : option (T * T) :=
  let val := (h00 - h11) * half in
  let discr := h10 * h01 + val * val in
  if o_zero <=? discr then
    let sqrt_discr := o_sqrt discr in
    let half_tra := (h00 + h11) * half in
    Some (half_tra + sqrt_discr, half_tra - sqrt_discr)
  else None.

(** [off_diag[m]] is negligible: [|off_diag[m]| <= eps * (|diag[m + 1]| + |diag[m]|)] fails *)
Definition coupling (diag : V3 T) (off_diag : V2 T) (eps : T) (m : nat) : option (T * T) :=
  o <- v2_get off_diag m ;;
  dn <- v3_get diag (S m) ;;
  dm <- v3_get diag m ;;
  Some (o_abs o, eps * (o_abs dn + o_abs dm)).
(** [delimit_subproblem] *)
Fixpoint delimit_end (diag : V3 T) (off_diag : V2 T) (eps : T) (n : nat) : option nat :=
  match n with
  | 0 => Some 0%nat
  | S m =>
    c <- coupling diag off_diag eps m ;;
    if snd c <? fst c then Some n else delimit_end diag off_diag eps m
  end.
Fixpoint delimit_start (diag : V3 T) (off_diag : V2 T) (eps : T) (new_start : nat) : option (nat * V2 T) :=
  match new_start with
  | 0 => Some (0%nat, off_diag)
  | S m =>
    off_diag_m <- v2_get off_diag m ;;
    c <- coupling diag off_diag eps m ;;
    if orb (o_eqb off_diag_m o_zero) (fst c <=? snd c) then
      off_diag <- v2_set off_diag m o_zero ;;
      Some (new_start, off_diag)
    else delimit_start diag off_diag eps m
  end.
Definition delimit_subproblem (diag : V3 T) (off_diag : V2 T) (fin : nat) (eps : T) : option (nat * nat * V2 T) :=
  n <- delimit_end diag off_diag eps fin ;;
  match n with
  | 0 => Some (0%nat, 0%nat, off_diag)
  | S m =>
    r <- delimit_start diag off_diag eps m ;;
    Some (fst r, n, snd r)
  end.

(** the loop [for i in start..n] of [do_decompose]: [count] iterations from [i] *)
Fixpoint chase (start n count i : nat) (vec : V2 T) (st : V3 T * V2 T * M33 T) : option (V3 T * V2 T * M33 T) :=
  match count with
  | 0 => Some st
  | S count' =>
    match cancel_y vec with
    | None => Some st
    | Some (c, s, norm) =>
      let '(diag, off_diag, q) := st in
      off_diag <- (if Nat.ltb start i then v2_set off_diag (i - 1) norm else Some off_diag) ;;
      mii <- v3_get diag i ;;
      mjj <- v3_get diag (i + 1) ;;
      mij <- v2_get off_diag i ;;
      let cc := c * c in
      let ss := s * s in
      let cs := c * s in
      let b := cs * o_two * mij in
      diag <- v3_set diag i ((cc * mii + ss * mjj) - b) ;;
      diag <- v3_set diag (i + 1) ((ss * mii + cc * mjj) + b) ;;
      off_diag <- v2_set off_diag i (cs * (mii - mjj) + mij * (cc - ss)) ;;
      r <- (if negb (Nat.eqb i (n - 1)) then
              x <- v2_get off_diag i ;;
              o1 <- v2_get off_diag (i + 1) ;;
              off_diag <- v2_set off_diag (i + 1) (o1 * c) ;;
              Some (mkV2 x ((- s) * o1), off_diag)
            else Some (vec, off_diag)) ;;
      q <- rotate_rows c (- s) i q ;;
      chase start n count' (i + 1) (fst r) (diag, snd r, q)
    end
  end.

(** the body of the loop [while end != start]: the new state and [end] *)
Definition qr_step (eps : T) (start fin : nat) (st : V3 T * V2 T * M33 T) : option (V3 T * V2 T * M33 T * nat) :=
  let subdim := (fin - start + 1)%nat in
  let '(diag, off_diag, q) := st in
  if Nat.ltb 2 subdim then
    let m := (fin - 1)%nat in
    let n := fin in
    dm <- v3_get diag m ;;
    dn <- v3_get diag n ;;
    om <- v2_get off_diag m ;;
    ds <- v3_get diag start ;;
    os <- v2_get off_diag start ;;
    st <- chase start n (n - start) start (mkV2 (ds - wilkinson_shift dm dn om) os) st ;;
    let '(diag, off_diag, q) := st in
    c <- coupling diag off_diag eps m ;;
    if fst c <=? snd c then Some (st, (fin - 1)%nat) else Some (st, fin)
  else if Nat.eqb subdim 2 then
    d0 <- v3_get diag start ;;
    d1 <- v3_get diag (start + 1) ;;
    o <- v2_get off_diag start ;;
    eigvals <- eigvals_2x2 d0 o o d1 ;;
    let basis := mkV2 (fst eigvals - d1) o in
    diag <- v3_set diag start (fst eigvals) ;;
    diag <- v3_set diag (start + 1) (snd eigvals) ;;
    q <- match givens_try_new (px basis) (py basis) eps with
         | Some (c, s) => rotate_rows c s start q
         | None => Some q
         end ;;
    Some (diag, off_diag, q, (fin - 1)%nat)
  else Some (st, fin).

(** [while end != start]; [Some None] is the failure to converge in [left] iterations *)
Fixpoint qr_loop (eps : T) (left : nat) (start fin : nat) (st : V3 T * V2 T * M33 T)
  : option (option (V3 T * M33 T)) :=
  if Nat.eqb fin start then let '(diag, _, q) := st in Some (Some (diag, q))
  else
    match left with
    | 0 => Some None
    | S left' =>
      r <- qr_step eps start fin st ;;
      let '(diag, off_diag, q, fin) := r in
      sub <- delimit_subproblem diag off_diag fin eps ;;
      let '(start, fin, off_diag) := sub in
      if Nat.eqb left' 0 then Some None
      else qr_loop eps left' start fin (diag, off_diag, q)
    end.

(** [Matrix::camax] *)
Definition camax (m : M33 T) : T :=
  fold_left (fun mx e => let ae := o_abs e in if mx <? ae then ae else mx)
    [m00 m; m10 m; m20 m; m01 m; m11 m; m21 m; m02 m; m12 m; m22 m] o_zero.
Definition m33_unscale (m : M33 T) (s : T) : M33 T :=
  mkM33 (m00 m / s) (m01 m / s) (m02 m / s) (m10 m / s) (m11 m / s) (m12 m / s) (m20 m / s) (m21 m / s) (m22 m / s).
(** [SymmetricEigen::try_new]: eigenvalues and eigenvectors.  [max_niter = 0] (no limit) is
    not represented; /repo/src/ray_intersection.rs passes 100. *)
Definition symmetric_eigen (matrix : M33 T) (eps : T) (max_niter : nat) : option (option (V3 T * M33 T)) :=
  let m_amax := camax matrix in
  let matrix := if negb (o_eqb m_amax o_zero) then m33_unscale matrix m_amax else matrix in
  let '(q_mat, diag, off_diag) := tridiagonalize matrix in
  sub <- delimit_subproblem diag off_diag 2 eps ;;
  let '(start, fin, off_diag) := sub in
  r <- qr_loop eps max_niter start fin (diag, off_diag, q_mat) ;;
  match r with
  | None => Some None
  | Some (diag, q) => Some (Some (v3_scale diag m_amax, q))
  end.

(** ** [svd_ordered3] *)
Definition col_norm_squared (m : M33 T) (j : nat) : option T :=
  a <- m33_get m 0 j ;; b <- m33_get m 1 j ;; c <- m33_get m 2 j ;; Some (v3_norm_squared (mkV3 a b c)).
(** swap columns [i] and [j], then negate column [j] *)
Definition swap_neg_columns (m : M33 T) (i j : nat) : option (M33 T) :=
  for_range 0 3 (fun k m =>
    a <- m33_get m k i ;; b <- m33_get m k j ;;
    m <- m33_set m k i b ;; m33_set m k j (- a)) m.
(** [if rho_i < rho_j { .. }] *)
Definition order_columns (less : bool) (i j : nat) (b v : M33 T) : option (M33 T * M33 T) :=
  if less then
    b <- swap_neg_columns b i j ;;
    v <- swap_neg_columns v i j ;;
    Some (b, v)
  else Some (b, v).
Definition svd_ordered3 (m : M33 T) (compute_u compute_v : bool) (eps : T) (niter : nat) : option (option (SVD T)) :=
  let s := m33_mul (m33_transpose m) m in
  r <- symmetric_eigen s eps niter ;;
  match r with
  | None => Some None
  | Some (_, v) =>
    let b := m33_mul m v in
    rho0 <- col_norm_squared b 0 ;;
    rho1 <- col_norm_squared b 1 ;;
    rho2 <- col_norm_squared b 2 ;;
    let c01 := rho0 <? rho1 in
    bv <- order_columns c01 0 1 b v ;;
    let '(rho0, rho1) := if c01 then (rho1, rho0) else (rho0, rho1) in
    let c02 := rho0 <? rho2 in
    bv <- order_columns c02 0 2 (fst bv) (snd bv) ;;
    let '(rho0, rho2) := if c02 then (rho2, rho0) else (rho0, rho2) in
    let c12 := rho1 <? rho2 in
    bv <- order_columns c12 1 2 (fst bv) (snd bv) ;;
    let qr := qr_new (cols_of_m33 (fst bv)) in
    let sigma i := o_abs (nth i (qr_diag qr) o_zero) in
    Some (Some (mkSVD (if compute_u then Some (qr_q qr) else None)
                      (mkV3 (sigma 0%nat) (sigma 1%nat) (sigma 2%nat))
                      (if compute_v then Some (m33_transpose (snd bv)) else None)))
  end.
(** [SVD::try_new] of a [Matrix3], for [best_intersection_of_rays]: a panic counts as a failure *)
Definition svd3_try_new (m : M33 T) (compute_u compute_v : bool) (eps : T) (niter : nat) : option (SVD T) :=
  match svd_ordered3 m compute_u compute_v eps niter with Some r => r | None => None end.
End Model.
