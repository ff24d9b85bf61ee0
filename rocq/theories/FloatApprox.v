(** * FloatApprox.v - a calculus of accumulated rounding errors, and the rigid motions (C67-C69) *)

From Coq Require Import ZArith Reals List Bool Lra Lia Psatz.
From Flocq Require Import Core BinarySingleNaN.
From Verif Require Import Scalar Linalg Bundles Extrinsics Rows Spec SpecFloatErr FloatBase FloatRound FloatErrProofs.
Import ListNotations.

Lemma u_pos' prec : (0 < bpow radix2 (- prec))%R. Proof. apply bpow_gt_0. Qed.
Lemma u11 prec : (11 <= prec)%Z -> (bpow radix2 (- prec) <= / 2048)%R.
Proof. intros P11. apply Rle_trans with (bpow radix2 (-11)); [apply bpow_le; lia|]. simpl. lra. Qed.
Section Approx.
Variables (prec emax : Z) (Hp : Prec_gt_0 prec) (He : Prec_lt_emax prec emax).
Variables fsin fcos : binary_float prec emax -> binary_float prec emax.
Local Notation F := (binary_float prec emax).
Local Hint Extern 0 (Ops (binary_float prec emax)) =>
  exact (B_ops prec emax Hp He fsin fcos) : typeclass_instances.
Local Open Scope R_scope.
(** the unit in which errors are counted: the unit of roundoff or more *)
Variable u : R.
Local Notation big := (bpow radix2 emax).
Local Notation tiny := (bpow radix2 (2 - emax)).
Local Notation flr := (fl prec emax).
Local Notation rnd := (rnd prec emax).
Local Instance fexp_valid : Valid_exp (SpecFloat.fexp prec emax) := fexp_correct prec emax Hp.
Hypotheses (UR : bpow radix2 (- prec) <= u) (U11 : u <= / 2048) (E17 : (17 <= emax)%Z).

Lemma ud_pos : 0 < u. Proof. apply Rlt_le_trans with (2 := UR), bpow_gt_0. Qed.
Lemma add_err_u x y a b W : flr x a -> flr y b -> tiny <= W -> Rabs (a + b) <= W -> (1 + u) * W < big ->
  exists r, flr (o_add x y) r /\ Rabs (r - (a + b)) <= u * W /\ Rabs r <= (1 + u) * W.
Proof.
  intros X Y T L B. assert (W0 : 0 < W) by (apply Rlt_le_trans with (2 := T), bpow_gt_0).
  destruct (add_err prec emax Hp He fsin fcos x y a b W X Y T L) as (r & A & D & E); [nra|].
  exists r. split; [exact A|]. split; nra.
Qed.
Lemma sub_err_u x y a b W : flr x a -> flr y b -> tiny <= W -> Rabs (a - b) <= W -> (1 + u) * W < big ->
  exists r, flr (o_sub x y) r /\ Rabs (r - (a - b)) <= u * W /\ Rabs r <= (1 + u) * W.
Proof.
  intros X Y T L B. assert (W0 : 0 < W) by (apply Rlt_le_trans with (2 := T), bpow_gt_0).
  destruct (sub_err prec emax Hp He fsin fcos x y a b W X Y T L) as (r & A & D & E); [nra|].
  exists r. split; [exact A|]. split; nra.
Qed.
Lemma mul_err_u x y a b W : flr x a -> flr y b -> tiny <= W -> Rabs (a * b) <= W -> (1 + u) * W < big ->
  exists r, flr (o_mul x y) r /\ Rabs (r - a * b) <= u * W /\ Rabs r <= (1 + u) * W.
Proof.
  intros X Y T L B. assert (W0 : 0 < W) by (apply Rlt_le_trans with (2 := T), bpow_gt_0).
  destruct (mul_err prec emax Hp He fsin fcos x y a b W X Y T L) as (r & A & D & E); [nra|].
  exists r. split; [exact A|]. split; nra.
Qed.
Lemma div_err_u x y a b W : flr x a -> flr y b -> b <> 0 -> tiny <= W -> Rabs (a / b) <= W -> (1 + u) * W < big ->
  exists r, flr (o_div x y) r /\ Rabs (r - a / b) <= u * W /\ Rabs r <= (1 + u) * W.
Proof.
  intros X Y N T L B. assert (W0 : 0 < W) by (apply Rlt_le_trans with (2 := T), bpow_gt_0).
  destruct (div_err prec emax Hp He fsin fcos x y a b W X Y N T L) as (r & A & D & E); [nra|].
  exists r. split; [exact A|]. split; nra.
Qed.
Lemma tiny_le_1 : tiny <= 1.
Proof. apply (bpow_le radix2 _ 0). lia. Qed.

(** [x] is a finite float; it approximates [a], of size at most [W], with an
    error of [k] units of roundoff of [W] *)
Definition app (x : F) (a W k : R) : Prop :=
  exists r, flr x r /\ Rabs (r - a) <= k * u * W /\ Rabs a <= W.

Lemma app_exact x r W : flr x r -> Rabs r <= W -> app x r W 0.
Proof. intros X L. exists r. split; [exact X|]. split; [|exact L]. rewrite Rminus_eq_0, Rabs_R0. lra. Qed.
Lemma app_weak x a W k W' k' : app x a W k -> Rabs a <= W' -> k * W <= k' * W' -> app x a W' k'.
Proof.
  intros (r & X & D & L) L' K. exists r. split; [exact X|]. split; [|exact L'].
  pose proof ud_pos. nra.
Qed.
Lemma app_grow x a W k W' k' : app x a W k -> W <= W' -> 0 <= k <= k' -> app x a W' k'.
Proof.
  intros (r & X & D & L) L' K. exists r. pose proof ud_pos. pose proof (Rabs_pos a).
  split; [exact X|]. split; [|lra]. eapply Rle_trans; [exact D|].
  apply Rmult_le_compat; nra.
Qed.
Lemma app_eq x a b W k : app x a W k -> a = b -> app x b W k.
Proof. now intros H <-. Qed.
Lemma app_neg x a W k : app x a W k -> app (o_neg x) (- a) W k.
Proof.
  intros (r & X & D & L). exists (- r). split; [now apply fl_neg|]. split.
  - replace (- r - - a) with (- (r - a)) by ring. now rewrite Rabs_Ropp.
  - now rewrite Rabs_Ropp.
Qed.
Lemma app_size x a W k r : app x a W k -> flr x r -> 0 <= k <= 1000 -> Rabs r <= (1 + k / 2048) * W.
Proof.
  intros (r' & (X1 & X) & D & L) (_ & Y) K. assert (r' = r) as -> by congruence.
  replace r with ((r - a) + a) by ring. eapply Rle_trans; [apply Rabs_triang|].
  pose proof U11. pose proof ud_pos. pose proof (Rabs_pos a).
  assert (k * u * W <= k / 2048 * W) by (apply Rmult_le_compat_r; nra). lra.
Qed.

Lemma app_add x y a b W1 W2 k1 k2 k k' : app x a W1 k1 -> app y b W2 k2 ->
  0 <= k1 <= k -> 0 <= k2 <= k -> k + 1 + k / 2048 <= k' -> k <= 1000 ->
  tiny <= W1 + W2 -> 4 * (W1 + W2) < big ->
  app (o_add x y) (a + b) (W1 + W2) k'.
Proof.
  intros (r1 & X & D1 & L1) (r2 & Y & D2 & L2) K1 K2 K' K T B.
  pose proof ud_pos as U0. pose proof U11 as U1. pose proof (Rabs_pos a). pose proof (Rabs_pos b).
  assert (DD : Rabs (r1 + r2 - (a + b)) <= k * u * (W1 + W2)).
  { replace (r1 + r2 - (a + b)) with ((r1 - a) + (r2 - b)) by ring.
    eapply Rle_trans; [apply tri; eassumption|].
    assert (k1 * u * W1 <= k * u * W1) by (apply Rmult_le_compat_r; nra).
    assert (k2 * u * W2 <= k * u * W2) by (apply Rmult_le_compat_r; nra). lra. }
  assert (LL : Rabs (r1 + r2) <= (1 + k * u) * (W1 + W2)).
  { replace (r1 + r2) with ((r1 + r2 - (a + b)) + (a + b)) by ring.
    eapply Rle_trans; [apply tri; [exact DD|apply tri; eassumption]|]. lra. }
  assert (KU : k * u <= k / 2048) by (unfold Rdiv; apply Rmult_le_compat_l; lra).
  assert (0 <= k * u) by nra.
  set (W := W1 + W2) in *. assert (W0 : 0 <= W) by (unfold W; lra).
  destruct (add_err_u x y r1 r2 ((1 + k * u) * W) X Y) as (r & R & E & _).
  { nra. } { exact LL. } { assert ((1 + u) * (1 + k * u) <= 2) by nra. nra. }
  exists r. split; [exact R|]. split; [|unfold W; apply tri; assumption].
  replace (r - (a + b)) with ((r - (r1 + r2)) + (r1 + r2 - (a + b))) by ring.
  eapply Rle_trans; [apply tri; eassumption|].
  apply Rle_trans with ((k + 1 + k / 2048) * u * W).
  - replace (u * ((1 + k * u) * W) + k * u * W) with ((k + 1 + k * u) * (u * W)) by ring.
    rewrite (Rmult_assoc _ u W). apply Rmult_le_compat_r; [nra|lra].
  - rewrite !Rmult_assoc. apply Rmult_le_compat_r; [nra|lra].
Qed.
Lemma app_sub x y a b W1 W2 k1 k2 k k' : app x a W1 k1 -> app y b W2 k2 ->
  0 <= k1 <= k -> 0 <= k2 <= k -> k + 1 + k / 2048 <= k' -> k <= 1000 ->
  tiny <= W1 + W2 -> 4 * (W1 + W2) < big ->
  app (o_sub x y) (a - b) (W1 + W2) k'.
Proof.
  intros (r1 & X & D1 & L1) (r2 & Y & D2 & L2) K1 K2 K' K T B.
  pose proof ud_pos as U0. pose proof U11 as U1. pose proof (Rabs_pos a). pose proof (Rabs_pos b).
  rewrite <- (Rabs_Ropp b) in L2.
  assert (DD : Rabs (r1 - r2 - (a - b)) <= k * u * (W1 + W2)).
  { replace (r1 - r2 - (a - b)) with ((r1 - a) + - (r2 - b)) by ring. rewrite <- (Rabs_Ropp (r2 - b)) in D2.
    eapply Rle_trans; [apply tri; eassumption|].
    assert (k1 * u * W1 <= k * u * W1) by (apply Rmult_le_compat_r; nra).
    assert (k2 * u * W2 <= k * u * W2) by (rewrite Rabs_Ropp in L2; apply Rmult_le_compat_r; nra). lra. }
  assert (LL : Rabs (r1 - r2) <= (1 + k * u) * (W1 + W2)).
  { replace (r1 - r2) with ((r1 - r2 - (a - b)) + (a + - b)) by ring.
    eapply Rle_trans; [apply tri; [exact DD|apply tri; eassumption]|]. lra. }
  assert (KU : k * u <= k / 2048) by (unfold Rdiv; apply Rmult_le_compat_l; lra).
  assert (0 <= k * u) by nra. rewrite Rabs_Ropp in L2.
  set (W := W1 + W2) in *. assert (W0 : 0 <= W) by (unfold W; lra).
  destruct (sub_err_u x y r1 r2 ((1 + k * u) * W) X Y) as (r & R & E & _).
  { nra. } { exact LL. } { assert ((1 + u) * (1 + k * u) <= 2) by nra. nra. }
  exists r. split; [exact R|]. split; [|unfold W, Rminus; apply tri; [assumption|now rewrite Rabs_Ropp]].
  replace (r - (a - b)) with ((r - (r1 - r2)) + (r1 - r2 - (a - b))) by ring.
  eapply Rle_trans; [apply tri; eassumption|].
  apply Rle_trans with ((k + 1 + k / 2048) * u * W).
  - replace (u * ((1 + k * u) * W) + k * u * W) with ((k + 1 + k * u) * (u * W)) by ring.
    rewrite (Rmult_assoc _ u W). apply Rmult_le_compat_r; [nra|lra].
  - rewrite !Rmult_assoc. apply Rmult_le_compat_r; [nra|lra].
Qed.
Lemma app_mul x y a b W1 W2 k1 k2 k' : app x a W1 k1 -> app y b W2 k2 ->
  0 <= k1 <= 1000 -> 0 <= k2 <= 1000 ->
  k1 + k2 + k1 * k2 / 2048 + (1 + k1 / 2048) * (1 + k2 / 2048) <= k' ->
  tiny <= W1 * W2 -> 4 * (W1 * W2) < big ->
  app (o_mul x y) (a * b) (W1 * W2) k'.
Proof.
  intros (r1 & X & D1 & L1) (r2 & Y & D2 & L2) K1 K2 K' T B.
  pose proof ud_pos as U0. pose proof U11 as U1. pose proof (Rabs_pos a) as A0. pose proof (Rabs_pos b) as B0.
  assert (KU1 : k1 * u <= k1 / 2048) by (unfold Rdiv; apply Rmult_le_compat_l; lra).
  assert (KU2 : k2 * u <= k2 / 2048) by (unfold Rdiv; apply Rmult_le_compat_l; lra).
  assert (N1 : 0 <= k1 * u) by nra. assert (N2 : 0 <= k2 * u) by nra.
  assert (L1' : Rabs r1 <= (1 + k1 * u) * W1).
  { replace r1 with ((r1 - a) + a) by ring. eapply Rle_trans; [apply tri; eassumption|]. lra. }
  assert (L2' : Rabs r2 <= (1 + k2 * u) * W2).
  { replace r2 with ((r2 - b) + b) by ring. eapply Rle_trans; [apply tri; eassumption|]. lra. }
  assert (W10 : 0 <= W1) by lra. assert (W20 : 0 <= W2) by lra.
  set (W := W1 * W2) in *. assert (W0 : 0 <= W) by (unfold W; nra).
  assert (LL : Rabs (r1 * r2) <= ((1 + k1 * u) * (1 + k2 * u)) * W).
  { rewrite Rabs_mult. replace (((1 + k1 * u) * (1 + k2 * u)) * W) with (((1 + k1 * u) * W1) * ((1 + k2 * u) * W2)) by (unfold W; ring).
    apply Rmult_le_compat; try apply Rabs_pos; assumption. }
  assert (DD : Rabs (r1 * r2 - a * b) <= (k1 + k2 + k1 * (k2 * u)) * (u * W)).
  { replace (r1 * r2 - a * b) with ((r1 - a) * r2 + a * (r2 - b)) by ring.
    eapply Rle_trans; [apply tri with (x := (k1 * u * W1) * ((1 + k2 * u) * W2)) (y := W1 * (k2 * u * W2))|].
    - rewrite Rabs_mult. apply Rmult_le_compat; try apply Rabs_pos; assumption.
    - rewrite Rabs_mult. apply Rmult_le_compat; try apply Rabs_pos; assumption.
    - unfold W. apply Req_le. ring. }
  assert (P1 : (1 + k1 * u) * (1 + k2 * u) <= (1 + k1 / 2048) * (1 + k2 / 2048)).
  { apply Rmult_le_compat; lra. }
  assert (P2 : 1 <= (1 + k1 * u) * (1 + k2 * u)) by nra.
  assert (P3 : (1 + k1 / 2048) * (1 + k2 / 2048) <= 2.25) by nra.
  destruct (mul_err_u x y r1 r2 (((1 + k1 * u) * (1 + k2 * u)) * W) X Y) as (r & R & E & _).
  { nra. } { exact LL. }
  { assert ((1 + u) * ((1 + k1 * u) * (1 + k2 * u)) <= 4) by nra. nra. }
  exists r. split; [exact R|]. split.
  - replace (r - a * b) with ((r - r1 * r2) + (r1 * r2 - a * b)) by ring.
    eapply Rle_trans; [apply tri; eassumption|].
    apply Rle_trans with ((k1 + k2 + k1 * k2 / 2048 + (1 + k1 / 2048) * (1 + k2 / 2048)) * (u * W)).
    + replace (u * ((1 + k1 * u) * (1 + k2 * u) * W)) with (((1 + k1 * u) * (1 + k2 * u)) * (u * W)) by ring.
      rewrite <- Rmult_plus_distr_r. apply Rmult_le_compat_r; [nra|].
      assert (k1 * (k2 * u) <= k1 * k2 / 2048) by nra. lra.
    + rewrite (Rmult_assoc k' u W). apply Rmult_le_compat_r; [nra|lra].
  - rewrite Rabs_mult. unfold W. apply Rmult_le_compat; try apply Rabs_pos; assumption.
Qed.

Lemma app_near x a W k e : app x a W k -> k * u * W <= e -> near e x a.
Proof. intros (r & (X & <-) & D & _) L. split; [exact X|lra]. Qed.
Lemma near_app e x a W k : near e x a -> e <= k * u * W -> Rabs a <= W -> app x a W k.
Proof. intros (X & D) L A. exists (B2R x). split; [now split|]. split; [lra|exact A]. Qed.
Lemma near_weak e e' (x : F) a : near e x a -> e <= e' -> near e' x a.
Proof. intros (X & D) L. split; [exact X|lra]. Qed.
Lemma vec_near_weak e e' (x : V3 F) a : vec_near e x a -> e <= e' -> vec_near e' x a.
Proof. intros (A & B & C) L. repeat split; try apply A; try apply B; try apply C; eapply near_weak; eauto. Qed.
End Approx.
