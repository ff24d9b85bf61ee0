(** * PropFloatRQ.v - property theorems C108, C109: rounding error of from_perspective_matrix and of the way from camera to matrix and back *)

From Coq Require Import ZArith Reals List Bool Lra Lia.
From Flocq Require Import Core BinarySingleNaN.
From Verif Require Import Scalar Linalg Bundles Extrinsics Perspective Camera Spec SpecFloatErr SpecFloatRQ SpecFloatMat FloatRQProofs6 FloatRQProofs7 PropFloatWorld PropFloatMat.
Import ListNotations.
Local Open Scope R_scope.

Section IEEE.
Variables (prec emax : Z) (Hp : Prec_gt_0 prec) (He : Prec_lt_emax prec emax).
Variables fsin fcos : binary_float prec emax -> binary_float prec emax.
Local Notation F := (binary_float prec emax).
Local Hint Extern 0 (Ops (binary_float prec emax)) =>
  exact (B_ops prec emax Hp He fsin fcos) : typeclass_instances.
Local Notation u := (bpow radix2 (- prec)).
Local Notation big := (bpow radix2 emax).

(** C108: a matrix of floats close to s K [R | -R c], for any scale s of either sign: the camera
    found has intrinsics, rotation and center close to K, R and c.  [D] is the relative error of the
    rows of the matrix (at least the unit roundoff), [th] says how far the rows of K are from
    linearly dependent, [C] bounds the distance of the center, [E] the exponents of the numbers. *)
Theorem C108_from_matrix_error (p : M34 F) s fx fy skew cx cy q c D C (E : Z) : (14 <= prec)%Z -> (0 <= E)%Z -> (4 * E + 17 <= emax)%Z ->
  s <> 0 -> 0 < fx -> 0 < fy -> unit_quat q -> vlen c <= C ->
  rows_near D C p (scaled_matrix s fx fy skew cx cy q c) ->
  let th := kspread fx fy skew cx cy in let n0 := kr0 fx skew cx in let n1 := kr1 fy cy in
  u <= D -> 3200000 * D <= th ->
  bpow radix2 (- E) <= th * Rabs s -> Rabs s <= bpow radix2 E ->
  bpow radix2 (- E) <= th * (Rabs s * n0) -> Rabs s * n0 <= bpow radix2 E ->
  bpow radix2 (- E) <= th * (Rabs s * n1) -> Rabs s * n1 <= bpow radix2 E ->
  bpow radix2 (- E) <= C <= bpow radix2 E ->
  exists k qh ch q', from_perspective_matrix p = Some (Ok (camera_new (perspective_from k) (from_rotation_and_camcenter qh ch))) /\
    near (25000 * (D / th) * n0) (pp_fx k) fx /\ near (25000 * (D / th) * n1) (pp_fy k) fy /\
    near (25000 * (D / th) * n0) (pp_skew k) skew /\ near (25000 * (D / th) * n0) (pp_cx k) cx /\ near (25000 * (D / th) * n1) (pp_cy k) cy /\
    unit_quat q' /\ rotm q' = rotm q /\ quat_near (44000 * (D / th)) qh q' /\ vec_near (100 * (D / th) * C) ch c.
Proof. exact (C108_lemma prec emax Hp He fsin fcos p s fx fy skew cx cy q c D C E). Qed.

(** C109: the camera that from_perspective_matrix finds in the matrix of as_camera_matrix is close to
    the one that the matrix is from, whatever sign the normalization gives to the matrix.  Only the
    exponents of the numbers depend on the depth [d0] of the world origin, not the errors. *)
Theorem C109_matrix_roundtrip_error (w : R) (k : PerspectiveParams F) (qh : Quat F) q c M d0 (E : Z) : u <= w <= / 2048 -> (14 <= prec)%Z -> (0 <= E)%Z -> (4 * E + 17 <= emax)%Z ->
  unit_quat q -> quat_near (8 * w) qh q -> vec_sized M c -> 1 <= M ->
  is_finite (pp_fx k) = true /\ is_finite (pp_fy k) = true /\ is_finite (pp_skew k) = true /\ is_finite (pp_cx k) = true /\ is_finite (pp_cy k) = true ->
  let fx := B2R (pp_fx k) in let fy := B2R (pp_fy k) in let skew := B2R (pp_skew k) in let cx := B2R (pp_cx k) in let cy := B2R (pp_cy k) in
  let th := kspread fx fy skew cx cy in let n0 := kr0 fx skew cx in let n1 := kr1 fy cy in
  1 <= fx -> 1 <= fy ->
  4096 * n0 * M * M < big -> 4096 * n0 * M * M < big * (d0 * d0) -> 4096 * n1 * M * M < big -> 4096 * n1 * M * M < big * (d0 * d0) ->
  0 < d0 -> d0 <= Rabs (vz (mv (rotm q) (vreal c))) -> 40000 * w * M <= d0 ->
  1408000000 * w <= th -> 2.2 * M <= th * bpow radix2 E -> n0 <= 0.99 * d0 * bpow radix2 E -> n1 <= 0.99 * d0 * bpow radix2 E ->
  exists k' qh' ch q', from_perspective_matrix (as_camera_matrix (camera_new (perspective_from k) (from_rotation_and_camcenter qh c))) =
      Some (Ok (camera_new (perspective_from k') (from_rotation_and_camcenter qh' ch))) /\
    near (11000000 * (w / th) * n0) (pp_fx k') fx /\ near (11000000 * (w / th) * n1) (pp_fy k') fy /\
    near (11000000 * (w / th) * n0) (pp_skew k') skew /\ near (11000000 * (w / th) * n0) (pp_cx k') cx /\ near (11000000 * (w / th) * n1) (pp_cy k') cy /\
    unit_quat q' /\ rotm q' = rotm q /\ quat_near (19360000 * (w / th)) qh' q' /\ vec_near (79200 * (w / th) * M) ch (vreal c).
Proof.
  intros (W1 & W2) P14 E0 EE U N C M1 FK fx fy skew cx cy th n0 n1 FX FY B0 B1 B2 B3 d1 dz Wd.
  exact (C109_lemma prec emax Hp He fsin fcos w W1 W2 ltac:(lia) k qh q c M d0 U N C M1 FK FX FY B0 B1 B2 B3 d1 dz Wd E P14 E0 EE).
Qed.
End IEEE.
Print Assumptions C108_from_matrix_error.
Print Assumptions C109_matrix_roundtrip_error.

Section F64.
Variables fsin fcos : f64 -> f64.
Local Hint Extern 0 (Ops f64) => exact (f64_ops fsin fcos) : typeclass_instances.

(** C108: double precision, every entry rounded to the nearest double or the next one, usual
    focal lengths, principal point within a focal length of the middle, any usual scale. *)
Theorem C108_from_matrix_f64 (p : M34 f64) s fx fy skew cx cy q c :
  / 1000000 <= Rabs s <= 1000000 -> 1 <= fx <= 100000 -> 1 <= fy <= 100000 -> Rabs skew <= fx -> Rabs cx <= fx -> Rabs cy <= fy ->
  unit_quat q -> vlen c <= 1000 -> entries_near (bpow radix2 (-52)) p (scaled_matrix s fx fy skew cx cy q c) ->
  exists k qh ch q', from_perspective_matrix p = Some (Ok (camera_new (perspective_from k) (from_rotation_and_camcenter qh ch))) /\
    near (fx * (3 / 100000000000)) (pp_fx k) fx /\ near (fy * (3 / 100000000000)) (pp_fy k) fy /\
    near (fx * (3 / 100000000000)) (pp_skew k) skew /\ near (fx * (3 / 100000000000)) (pp_cx k) cx /\ near (fy * (3 / 100000000000)) (pp_cy k) cy /\
    unit_quat q' /\ rotm q' = rotm q /\ quat_near (3 / 100000000000) qh q' /\ vec_near (6 / 100000000000) ch c.
Proof. exact (C108b_lemma fsin fcos p s fx fy skew cx cy q c). Qed.

(** C109: double precision, coordinates of the center up to 100, focal lengths from 1 to 10000,
    principal point within a focal length of the middle, world origin at depth 1 or more. *)
Theorem C109_matrix_roundtrip_f64 (k : PerspectiveParams f64) (qh : Quat f64) q c : unit_quat q -> quat_near (8 * bpow radix2 (- (53))) qh q -> vec_sized 100 c -> persp_sized 10000 k ->
  1 <= B2R (pp_fx k) -> 1 <= B2R (pp_fy k) -> Rabs (B2R (pp_skew k)) <= B2R (pp_fx k) -> Rabs (B2R (pp_cx k)) <= B2R (pp_fx k) -> Rabs (B2R (pp_cy k)) <= B2R (pp_fy k) ->
  1 <= Rabs (vz (mv (rotm q) (vreal c))) ->
  exists k' qh' ch q', from_perspective_matrix (as_camera_matrix (camera_new (perspective_from k) (from_rotation_and_camcenter qh c))) =
      Some (Ok (camera_new (perspective_from k') (from_rotation_and_camcenter qh' ch))) /\
    near (B2R (pp_fx k) * (6 / 1000000000)) (pp_fx k') (B2R (pp_fx k)) /\ near (B2R (pp_fy k) * (6 / 1000000000)) (pp_fy k') (B2R (pp_fy k)) /\
    near (B2R (pp_fx k) * (6 / 1000000000)) (pp_skew k') (B2R (pp_skew k)) /\ near (B2R (pp_fx k) * (6 / 1000000000)) (pp_cx k') (B2R (pp_cx k)) /\
    near (B2R (pp_fy k) * (6 / 1000000000)) (pp_cy k') (B2R (pp_cy k)) /\
    unit_quat q' /\ rotm q' = rotm q /\ quat_near (6 / 1000000000) qh' q' /\ vec_near (3 / 1000000000) ch (vreal c).
Proof. exact (C109b_lemma fsin fcos k qh q c). Qed.

(** -2 K [R | -R c] for K of focal lengths 400 and 300 and principal point (300, -200), R the
    rotation that takes the axes around, c = (1, 2, 2) *)
Local Notation lit m e := (@o_lit f64 (f64_ops fsin fcos) m%Z e%Z).
Local Ltac val := cbv -[IZR Rdiv Rinv Rmult Rplus Ropp]; lra.
Definition ex_rq : M34 f64 := mkM34 (lit 0 0) (lit (-600) 0) (lit (-800) 0) (lit 2800 0) (lit (-600) 0) (lit 400 0) (lit 0 0) (lit (-200) 0) (lit 0 0) (lit (-2) 0) (lit 0 0) (lit 4 0).
Definition ex_rq_q : Quat R := mkQuat (1 / 2) (1 / 2) (1 / 2) (1 / 2).
Example ex_rq_near : entries_near (bpow radix2 (-52)) ex_rq (scaled_matrix (-2) 400 300 0 300 (-200) ex_rq_q (mkV3 1 2 2)).
Proof.
  assert (N : forall (a : f64) b z, is_finite a = true -> B2R a = z -> b = z -> near (bpow radix2 (-52) * Rabs b) a b).
  { intros a b z Fa <- ->. split; [exact Fa|]. rewrite Rminus_diag_eq, Rabs_R0 by reflexivity. apply Rmult_le_pos; [apply bpow_ge_0|apply Rabs_pos]. }
  unfold entries_near, scaled_matrix, hstack, ex_rq, ex_rq_q. cbn [p00 p01 p02 p03 p10 p11 p12 p13 p20 p21 p22 p23].
  split; [|split]; (split; [|split; [|split]]).
  - apply (N _ _ 0); [reflexivity|val|val].
  - apply (N _ _ (-600)); [reflexivity|val|val].
  - apply (N _ _ (-800)); [reflexivity|val|val].
  - apply (N _ _ 2800); [reflexivity|val|val].
  - apply (N _ _ (-600)); [reflexivity|val|val].
  - apply (N _ _ 400); [reflexivity|val|val].
  - apply (N _ _ 0); [reflexivity|val|val].
  - apply (N _ _ (-200)); [reflexivity|val|val].
  - apply (N _ _ 0); [reflexivity|val|val].
  - apply (N _ _ (-2)); [reflexivity|val|val].
  - apply (N _ _ 0); [reflexivity|val|val].
  - apply (N _ _ 4); [reflexivity|val|val].
Qed.
Example C108_case : exists k qh ch q', from_perspective_matrix ex_rq = Some (Ok (camera_new (perspective_from k) (from_rotation_and_camcenter qh ch))) /\
  near (2 / 100000000) (pp_fx k) 400 /\ near (2 / 100000000) (pp_cy k) (-200) /\ rotm q' = rotm ex_rq_q /\ quat_near (3 / 100000000000) qh q' /\
  vec_near (6 / 100000000000) ch (mkV3 1 2 2).
Proof.
  assert (W : forall e e' (x : f64) a, near e x a -> e <= e' -> near e' x a) by (intros e e' x a (A & B) L; split; [exact A|lra]).
  destruct (C108_from_matrix_f64 ex_rq (-2) 400 300 0 300 (-200) ex_rq_q (mkV3 1 2 2)) as (k & qh & ch & q' & A & K1 & _ & _ & _ & K5 & _ & R & Q & N).
  - rewrite Rabs_left; lra.
  - lra.
  - lra.
  - rewrite Rabs_R0. lra.
  - rewrite Rabs_pos_eq; lra.
  - rewrite Rabs_left; lra.
  - unfold unit_quat, ex_rq_q. val.
  - unfold vlen, vdot. cbn [vx vy vz]. replace (1 * 1 + 2 * 2 + 2 * 2) with (3 * 3) by lra. rewrite sqrt_square; lra.
  - apply ex_rq_near.
  - exists k, qh, ch, q'. split; [exact A|]. split; [apply (W _ _ _ _ K1); lra|]. split; [apply (W _ _ _ _ K5); lra|]. split; [exact R|]. split; [exact Q|exact N].
Qed.
(** the camera of PropFloatWorld.v; the normalization gives its matrix the other sign *)
Local Notation qh := (ex_qh fsin fcos). Local Notation ch := (ex_ch fsin fcos). Local Notation kh := (ex_kh fsin fcos).
Example C109_case : exists k' qh' ch' q', from_perspective_matrix (as_camera_matrix (camera_new (perspective_from kh) (from_rotation_and_camcenter qh ch))) =
      Some (Ok (camera_new (perspective_from k') (from_rotation_and_camcenter qh' ch'))) /\
  near (6 / 1000000) (pp_fx k') 1000 /\ near (6 / 1000000) (pp_skew k') (1 / 4) /\ rotm q' = rotm ex_qr /\ quat_near (6 / 1000000000) qh' q' /\
  vec_near (3 / 1000000000) ch' (mkV3 1 2 3).
Proof.
  assert (A : vreal ch = mkV3 1 2 3) by (unfold vreal, ex_ch; f_equal; val).
  assert (X1 : B2R (pp_fx kh) = 1000) by val. assert (X2 : B2R (pp_fy kh) = 1002) by val. assert (X3 : B2R (pp_skew kh) = 1 / 4) by val. assert (X4 : B2R (pp_cx kh) = 321) by val. assert (X5 : B2R (pp_cy kh) = 240) by val.
  destruct (C109_matrix_roundtrip_f64 kh qh ex_qr ch ex_qr_unit (ex_qh_near fsin fcos) (ex_ch_sized fsin fcos) (ex_kh_sized fsin fcos)) as (k' & qh' & ch' & q' & Q & K1 & _ & K3 & _ & _ & _ & R & N & V);
    rewrite ?X1, ?X2, ?X3, ?X4, ?X5, ?ex_tz; rewrite ?Rabs_pos_eq; try lra.
  rewrite X1 in K1, K3. rewrite X3 in K3. rewrite A in V. assert (T : 1000 * (6 / 1000000000) = 6 / 1000000) by lra. rewrite T in K1, K3.
  exists k', qh', ch', q'. split; [exact Q|]. split; [exact K1|]. split; [exact K3|]. split; [exact R|]. split; [exact N|exact V].
Qed.
End F64.
Print Assumptions C108_from_matrix_f64.
Print Assumptions C109_matrix_roundtrip_f64.
