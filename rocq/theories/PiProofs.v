(** * PiProofs.v - distance between pi and its f64 approximation *)

From Coq Require Import ZArith QArith Qreals Reals Machin Lra Lia.
From Verif Require Import Scalar.
Local Open Scope R_scope.

(** Partial sums of the series PI/4 = 2 atan(1/3) + atan(1/7), in [Q]. *)
Fixpoint qpow (x : Q) (n : nat) : Q := match n with O => 1%Q | S n => Qred (x * qpow x n)%Q end.
Definition qterm (n : nat) : Q :=
  Qred (qpow (-1 # 1) n * (2 * (qpow (1 # 3) (2 * n + 1) / inject_Z (Z.of_nat (2 * n + 1)))
                           + qpow (1 # 7) (2 * n + 1) / inject_Z (Z.of_nat (2 * n + 1))))%Q.
Fixpoint qsum (n : nat) : Q := match n with O => qterm 0 | S k => Qred (qsum k + qterm (S k))%Q end.

Lemma Q2R_red q : Q2R (Qred q) = Q2R q.
Proof. apply Qeq_eqR, Qred_correct. Qed.
Lemma Q2R_qpow x n : Q2R (qpow x n) = Q2R x ^ n.
Proof.
  induction n; cbn [qpow pow]; [unfold Q2R; simpl; field|].
  now rewrite Q2R_red, Q2R_mult, IHn.
Qed.
Lemma Q2R_nat n : Q2R (inject_Z (Z.of_nat n)) = INR n.
Proof. unfold Q2R, inject_Z; simpl. rewrite INR_IZR_INZ. field. Qed.
Lemma Q2R_qterm n : Q2R (qterm n) = tg_alt PI_2_3_7_tg n.
Proof.
  assert (P : INR (2 * n + 1) <> 0) by (apply not_0_INR; lia).
  assert (NZ : ~ (inject_Z (Z.of_nat (2 * n + 1)) == 0)%Q).
  { intros E. apply Qeq_eqR in E. rewrite Q2R_nat in E. apply P. rewrite E. unfold Q2R; simpl; field. }
  unfold qterm, tg_alt, PI_2_3_7_tg, Ratan_seq.
  rewrite Q2R_red, Q2R_mult, Q2R_plus, Q2R_mult, !Q2R_div, !Q2R_qpow, Q2R_nat by assumption.
  replace (Q2R (-1 # 1)) with (-1) by (unfold Q2R; simpl; field).
  replace (Q2R (1 # 3)) with (/ 3) by (unfold Q2R; simpl; field).
  replace (Q2R (1 # 7)) with (/ 7) by (unfold Q2R; simpl; field).
  replace (Q2R 2) with 2 by (unfold Q2R; simpl; field).
  reflexivity.
Qed.
Lemma Q2R_qsum n : Q2R (qsum n) = sum_f_R0 (tg_alt PI_2_3_7_tg) n.
Proof.
  induction n; cbn [qsum sum_f_R0]; [apply Q2R_qterm|].
  now rewrite Q2R_red, Q2R_plus, IHn, Q2R_qterm.
Qed.

Definition pi64Q : Q := 884279719003555 # 281474976710656.
Lemma pi64_R : o_pi64 = Q2R pi64Q.
Proof. unfold o_pi64, pi64Q, Q2R; simpl. f_equal; f_equal; lra. Qed.

Lemma pi64_error : 0 < PI - o_pi64 <= 13 / 100000000000000000.
Proof.
  destruct (PI_2_3_7_ineq 10) as [L H].
  rewrite <- !Q2R_qsum in *. rewrite pi64_R.
  assert (A : (pi64Q + (1 # 100000000000000000) <= 4 * qsum (S (2 * 10)))%Q) by (vm_compute; discriminate).
  assert (B : (4 * qsum (2 * 10) <= pi64Q + (13 # 100000000000000000))%Q) by (vm_compute; discriminate).
  apply Qle_Rle in A. apply Qle_Rle in B. rewrite Q2R_plus, Q2R_mult in A. rewrite Q2R_plus, Q2R_mult in B.
  replace (Q2R 4) with 4 in * by (unfold Q2R; simpl; field).
  replace (Q2R (13 # 100000000000000000)) with (13 / 100000000000000000) in B by (unfold Q2R; simpl; field).
  assert (E : 0 < Q2R (1 # 100000000000000000)) by (unfold Q2R; simpl; lra).
  lra.
Qed.
