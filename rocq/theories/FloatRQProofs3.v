(** * FloatRQProofs3.v - rounding error of determinants and of the decomposition into rotation and intrinsics (C108) *)

From Coq Require Import ZArith Reals List Bool Lra Lia Psatz.
From Flocq Require Import Core BinarySingleNaN.
From Verif Require Import Scalar Linalg Householder Perspective Extrinsics Camera Spec SpecFloatErr SpecFloatRQ RealBase VecLemmas FromViewProofs SpectralProofs FloatBase FloatRound FloatErrProofs FloatApprox FloatRigidProofs
  FloatDirProofs FloatViewProofs QRProofs JacProofs FloatIsectProofs3 FloatIsectProofs4 FloatQRProofs FloatQRProofs2 RQPerturbProofs FloatRQProofs FloatRQProofs2.
Import ListNotations.
Local Open Scope R_scope.

Section Det.
Variables (prec emax : Z) (Hp : Prec_gt_0 prec) (He : Prec_lt_emax prec emax).
Variables fsin fcos : binary_float prec emax -> binary_float prec emax.
Local Notation F := (binary_float prec emax).
Local Hint Extern 0 (Ops (binary_float prec emax)) =>
  exact (B_ops prec emax Hp He fsin fcos) : typeclass_instances.
Local Notation u := (bpow radix2 (- prec)).
Local Notation big := (bpow radix2 emax).
Local Notation tiny := (bpow radix2 (2 - emax)).
Local Notation flr := (fl prec emax).
Hypotheses (P14 : (14 <= prec)%Z) (E17 : (17 <= emax)%Z).
Local Notation mfl := (mfl prec emax).

Section D.
Variable d : R.
Hypotheses (UD : u <= d) (D11 : d <= / 2048).
Local Notation app := (app prec emax d).
Variables (E : Z) (W0 W1 W2 C k k1 k2 k3 k4 k5 : R).
Hypotheses (E0 : (0 <= E)%Z) (E8 : (4 * E + 8 <= emax)%Z)
  (w0 : bpow radix2 (- E) <= W0 <= bpow radix2 E) (w1 : bpow radix2 (- E) <= W1 <= bpow radix2 E) (w2 : bpow radix2 (- E) <= W2 <= bpow radix2 E) (c0 : bpow radix2 (- E) <= C <= bpow radix2 E)
  (K0 : 0 <= k <= 200) (K1 : k + k + k * k / 2048 + (1 + k / 2048) * (1 + k / 2048) <= k1) (K2 : k1 + 1 + k1 / 2048 <= k2)
  (K3 : k + k2 + k * k2 / 2048 + (1 + k / 2048) * (1 + k2 / 2048) <= k3) (K4 : k3 + 1 + k3 / 2048 <= k4) (K5 : k4 + 1 + k4 / 2048 <= k5) (K6 : k5 <= 1000).
Lemma prod_range a b x y : (0 <= a)%Z -> (0 <= b)%Z -> bpow radix2 (- a) <= x <= bpow radix2 a -> bpow radix2 (- b) <= y <= bpow radix2 b -> bpow radix2 (- (a + b)) <= x * y <= bpow radix2 (a + b).
Proof.
  intros A B X Y. replace (- (a + b))%Z with (- a + - b)%Z by ring. rewrite !bpow_plus.
  pose proof (bpow_gt_0 radix2 (- a)). pose proof (bpow_gt_0 radix2 (- b)). split; apply Rmult_le_compat; lra.
Qed.
Lemma range_ok a x t : (0 <= a)%Z -> (a <= 4 * E)%Z -> bpow radix2 (- a) <= x <= bpow radix2 a -> 1 <= t <= 6 -> tiny <= t * x /\ 4 * (t * x) < big.
Proof.
  intros A AE X T. assert (tiny <= bpow radix2 (- a)) by (apply bpow_le; lia). pose proof (bpow_gt_0 radix2 (- a)).
  assert (32 * bpow radix2 a < big).
  { replace 32 with (bpow radix2 5) by (simpl; lra). rewrite <- bpow_plus. apply bpow_lt. lia. }
  split; nra.
Qed.
Lemma det_app (m : M33 F) w :
  app (m00 m) (m00 w) W0 k -> app (m01 m) (m01 w) W0 k -> app (m02 m) (m02 w) (W0 * C) k ->
  app (m10 m) (m10 w) W1 k -> app (m11 m) (m11 w) W1 k -> app (m12 m) (m12 w) (W1 * C) k ->
  app (m20 m) (m20 w) W2 k -> app (m21 m) (m21 w) W2 k -> app (m22 m) (m22 w) (W2 * C) k ->
  app (m33_det m) (mdet w) (6 * (W0 * W1 * W2 * C)) k5.
Proof.
  intros a00 a01 a02 a10 a11 a12 a20 a21 a22. pose proof (bpow_gt_0 radix2 (- E)) as EP.
  assert (k1p : 0 <= k1) by (assert (0 <= k * k) by nra; nra). assert (k2p : 0 <= k2) by lra.
  assert (k23 : k2 <= k3) by (assert (0 <= k * k2) by (apply Rmult_le_pos; lra); assert (0 <= (1 + k / 2048) * (1 + k2 / 2048)) by (apply Rmult_le_pos; lra); lra).
  assert (k3p : 0 <= k3) by lra. assert (k4p : 0 <= k4) by lra.
  assert (R12 := prod_range E E W1 W2 E0 E0 w1 w2). assert (R12C := prod_range (E + E) E (W1 * W2) C ltac:(lia) E0 R12 c0).
  assert (RALL := prod_range (E + E + E) E (W1 * W2 * C) W0 ltac:(lia) E0 R12C w0).
  assert (MUL : forall (x y : F) p q A B W, app x p A k -> app y q B k -> A * B = W -> forall e, (0 <= e)%Z -> (e <= 4 * E)%Z -> bpow radix2 (- e) <= W <= bpow radix2 e -> app (o_mul x y) (p * q) W k1).
  { intros x y p q A B W X Y <- e e0 e4 R. destruct (range_ok e (A * B) 1 e0 e4 R ltac:(lra)) as (T1 & T2). rewrite Rmult_1_l in T1, T2. apply (app_mul prec emax Hp He fsin fcos d UD D11 x y p q A B k k k1 X Y); lra. }
  assert (MIN : forall (x y : F) p q A W e, app x p A k1 -> app y q A k1 -> A = W -> (0 <= e)%Z -> (e <= 4 * E)%Z -> bpow radix2 (- e) <= W <= bpow radix2 e -> app (o_sub x y) (p - q) (2 * W) k2).
  { intros x y p q A W e X Y <- e0 e4 R. destruct (range_ok e A 2 e0 e4 R ltac:(lra)) as (T1 & T2). eapply app_eq; [|reflexivity]. replace (2 * A) with (A + A) in * by ring.
    apply (app_sub prec emax Hp He fsin fcos d UD D11 x y p q A A k1 k1 k1 k2 X Y); lra. }
  assert (P1 : app (o_sub (o_mul (m11 m) (m22 m)) (o_mul (m21 m) (m12 m))) (m11 w * m22 w - m21 w * m12 w) (2 * (W1 * W2 * C)) k2).
  { apply (MIN _ _ _ _ (W1 * W2 * C) _ (E + E + E)%Z); try lia; try reflexivity; try exact R12C.
    - apply (MUL _ _ _ _ W1 (W2 * C) (W1 * W2 * C) a11 a22 ltac:(ring) (E + E + E)%Z); try lia. exact R12C.
    - apply (MUL _ _ _ _ W2 (W1 * C) (W1 * W2 * C) a21 a12 ltac:(ring) (E + E + E)%Z); try lia. exact R12C. }
  assert (P2 : app (o_sub (o_mul (m10 m) (m22 m)) (o_mul (m20 m) (m12 m))) (m10 w * m22 w - m20 w * m12 w) (2 * (W1 * W2 * C)) k2).
  { apply (MIN _ _ _ _ (W1 * W2 * C) _ (E + E + E)%Z); try lia; try reflexivity; try exact R12C.
    - apply (MUL _ _ _ _ W1 (W2 * C) (W1 * W2 * C) a10 a22 ltac:(ring) (E + E + E)%Z); try lia. exact R12C.
    - apply (MUL _ _ _ _ W2 (W1 * C) (W1 * W2 * C) a20 a12 ltac:(ring) (E + E + E)%Z); try lia. exact R12C. }
  assert (P3 : app (o_sub (o_mul (m10 m) (m21 m)) (o_mul (m20 m) (m11 m))) (m10 w * m21 w - m20 w * m11 w) (2 * (W1 * W2)) k2).
  { apply (MIN _ _ _ _ (W1 * W2) _ (E + E)%Z); try lia; try reflexivity; try exact R12.
    - apply (MUL _ _ _ _ W1 W2 (W1 * W2) a10 a21 ltac:(ring) (E + E)%Z); try lia. exact R12.
    - apply (MUL _ _ _ _ W2 W1 (W1 * W2) a20 a11 ltac:(ring) (E + E)%Z); try lia. exact R12. }
  assert (R2 := range_ok (E + E + E + E)%Z (W1 * W2 * C * W0) 2 ltac:(lia) ltac:(lia) RALL ltac:(lra)). assert (R4 := range_ok (E + E + E + E)%Z (W1 * W2 * C * W0) 4 ltac:(lia) ltac:(lia) RALL ltac:(lra)). assert (R6 := range_ok (E + E + E + E)%Z (W1 * W2 * C * W0) 6 ltac:(lia) ltac:(lia) RALL ltac:(lra)).
  set (N := W1 * W2 * C * W0) in *.
  assert (MU3 : forall (x y : F) p q A B, app x p A k -> app y q B k2 -> A * B = 2 * N -> app (o_mul x y) (p * q) (2 * N) k3).
  { intros x y p q A B X Y EQ. rewrite <- EQ in *. apply (app_mul prec emax Hp He fsin fcos d UD D11 x y p q A B k k2 k3 X Y); try lra; apply R2. }
  pose proof (MU3 _ _ _ _ _ _ a00 P1 ltac:(unfold N; ring)) as Q1. pose proof (MU3 _ _ _ _ _ _ a01 P2 ltac:(unfold N; ring)) as Q2. pose proof (MU3 _ _ _ _ _ _ a02 P3 ltac:(unfold N; ring)) as Q3.
  unfold m33_det.
  assert (Q4 : app (o_sub (o_mul (m00 m) (o_sub (o_mul (m11 m) (m22 m)) (o_mul (m21 m) (m12 m)))) (o_mul (m01 m) (o_sub (o_mul (m10 m) (m22 m)) (o_mul (m20 m) (m12 m)))))
     (m00 w * (m11 w * m22 w - m21 w * m12 w) - m01 w * (m10 w * m22 w - m20 w * m12 w)) (2 * N + 2 * N) k4).
  { replace (4 * N) with (2 * N + 2 * N) in R4 by ring. apply (app_sub prec emax Hp He fsin fcos d UD D11 _ _ _ _ _ _ k3 k3 k3 k4 Q1 Q2); try lra; apply R4. }
  replace (6 * (W0 * W1 * W2 * C)) with (2 * N + 2 * N + 2 * N) by (unfold N; ring). replace (6 * N) with (2 * N + 2 * N + 2 * N) in R6 by ring.
  eapply app_eq; [apply (app_add prec emax Hp He fsin fcos d UD D11 _ _ _ _ _ _ k4 k3 k4 k5 Q4 Q3); try lra; apply R6|]. ru_spec. ring.
Qed.
End D.

(** the determinant of a matrix close to an orthogonal one *)
Lemma det_sign d (m : M33 F) w : u <= d -> d <= / 16384 -> orthogonal w -> mat_near prec emax (69 * d) m w -> exists r, flr (m33_det m) r /\ Rabs (r - mdet w) <= 0.1.
Proof.
  intros UD D14 O (n00 & n01 & n02 & n10 & n11 & n12 & n20 & n21 & n22). pose proof (u0 prec) as U0. destruct (orth_entries w O) as ((b00 & b01 & b02) & (b10 & b11 & b12) & (b20 & b21 & b22)).
  assert (AP : forall (x : F) a, near (69 * d) x a -> Rabs a <= 1 -> app prec emax d x a 1 69).
  { intros x a X A. apply (near_app prec emax d (69 * d) x a 1 69 X); [lra|exact A]. }
  assert (one : bpow radix2 (- 0) <= 1 <= bpow radix2 0) by (simpl; lra).
  destruct (det_app d UD ltac:(lra) 0 1 1 1 1 69 141.5 142.6 217.8 219 220.2 ltac:(lia) ltac:(lia) one one one one ltac:(lra) ltac:(lra) ltac:(lra) ltac:(lra) ltac:(lra) ltac:(lra) ltac:(lra) m w) as (r & R1 & R2 & _);
    try (apply AP; assumption); try (rewrite Rmult_1_l; apply AP; assumption).
  exists r. split; [exact R1|]. lra.
Qed.
End Det.
