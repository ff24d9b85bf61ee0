(** * FloatRound.v - the IEEE operations as rounded real operations *)

From Coq Require Import ZArith Reals List Bool Lra Lia.
From Flocq Require Import Core BinarySingleNaN Mult_error Sterbenz.
From Verif Require Import Scalar Linalg.

Section FloatRound.
Variables (prec emax : Z) (Hp : Prec_gt_0 prec) (He : Prec_lt_emax prec emax).
Variables fsin fcos : binary_float prec emax -> binary_float prec emax.
Local Notation F := (binary_float prec emax).
Local Hint Extern 0 (Ops (binary_float prec emax)) =>
  exact (B_ops prec emax Hp He fsin fcos) : typeclass_instances.
Local Open Scope R_scope.

Local Instance fexp_valid : Valid_exp (SpecFloat.fexp prec emax) := fexp_correct prec emax Hp.
Definition fmt (x : R) : Prop := generic_format radix2 (SpecFloat.fexp prec emax) x.
Definition rnd (x : R) : R := round radix2 (SpecFloat.fexp prec emax) ZnearestE x.
(** [x] is a finite float of value [r]. *)
Definition fl (x : F) (r : R) : Prop := is_finite x = true /\ B2R x = r.
Definition big : R := bpow radix2 emax.

Lemma fl_fmt x r : fl x r -> fmt r.
Proof. intros [_ <-]. apply generic_format_B2R. Qed.
Lemma fl_lt_big x r : fl x r -> Rabs r < big.
Proof. intros [_ <-]. apply abs_B2R_lt_emax. Qed.
Lemma fl_finite x : is_finite x = true -> fl x (B2R x).
Proof. intros; split; auto. Qed.

Lemma rnd_fmt x : fmt (rnd x).
Proof. apply generic_format_round; auto with typeclass_instances. Qed.
Lemma rnd_id x : fmt x -> rnd x = x.
Proof. apply round_generic; auto with typeclass_instances. Qed.
Lemma rnd_le x y : x <= y -> rnd x <= rnd y.
Proof. apply round_le; auto with typeclass_instances. Qed.
Lemma rnd_le_fmt x y : fmt y -> x <= y -> rnd x <= y.
Proof. apply round_le_generic; auto with typeclass_instances. Qed.
Lemma rnd_ge_fmt x y : fmt x -> x <= y -> x <= rnd y.
Proof. apply round_ge_generic; auto with typeclass_instances. Qed.
Lemma fmt_opp x : fmt x -> fmt (- x).
Proof. apply generic_format_opp. Qed.
Lemma fmt_abs x : fmt x -> fmt (Rabs x).
Proof. apply generic_format_abs. Qed.
Lemma fmt_0 : fmt 0.
Proof. apply generic_format_0. Qed.
Lemma rnd_abs_le x y : fmt y -> Rabs x <= y -> Rabs (rnd x) <= y.
Proof. intros; now apply abs_round_le_generic; auto with typeclass_instances. Qed.
Lemma rnd_abs_ge x y : fmt x -> x <= Rabs y -> x <= Rabs (rnd y).
Proof. intros; now apply abs_round_ge_generic; auto with typeclass_instances. Qed.
Lemma fmt_bpow e : (3 - emax - prec <= e)%Z -> fmt (bpow radix2 e).
Proof.
  intros H. apply generic_format_bpow. unfold SpecFloat.fexp, SpecFloat.emin.
  unfold Prec_gt_0 in Hp. lia.
Qed.

Lemma fl_neg x r : fl x r -> fl (o_neg x) (- r).
Proof.
  intros [A B]; split.
  - change (is_finite (Bopp x) = true). now rewrite is_finite_Bopp.
  - change (B2R (Bopp x) = - r). now rewrite B2R_Bopp, B.
Qed.
Lemma fl_abs x r : fl x r -> fl (o_abs x) (Rabs r).
Proof.
  intros [A B]; split.
  - change (is_finite (Babs x) = true). now rewrite is_finite_Babs.
  - change (B2R (Babs x) = Rabs r). now rewrite B2R_Babs, B.
Qed.
Lemma fl_zero : fl o_zero 0.
Proof. split; reflexivity. Qed.
Lemma fl_one : fl o_one 1.
Proof. split; [apply is_finite_Bone|apply Bone_correct]. Qed.

Lemma fl_add x y a b : fl x a -> fl y b -> Rabs (rnd (a + b)) < big -> fl (o_add x y) (rnd (a + b)).
Proof.
  intros [A <-] [B <-] H. pose proof (Bplus_correct prec emax Hp He mode_NE x y A B) as C.
  rewrite Rlt_bool_true in C by exact H. destruct C as (C1 & C2 & _). now split.
Qed.
Lemma fl_sub x y a b : fl x a -> fl y b -> Rabs (rnd (a - b)) < big -> fl (o_sub x y) (rnd (a - b)).
Proof.
  intros [A <-] [B <-] H. pose proof (Bminus_correct prec emax Hp He mode_NE x y A B) as C.
  rewrite Rlt_bool_true in C by exact H. destruct C as (C1 & C2 & _). now split.
Qed.
Lemma fl_sub_overflow x y a b : fl x a -> fl y b -> big <= Rabs (rnd (a - b)) ->
  exists s, o_sub x y = B754_infinity s.
Proof.
  intros [A <-] [B <-] H. pose proof (Bminus_correct prec emax Hp He mode_NE x y A B) as C.
  rewrite Rlt_bool_false in C by exact H. destruct C as (C1 & _).
  change (o_sub x y) with (Bminus mode_NE x y).
  destruct (Bminus mode_NE x y); try discriminate C1. eexists; reflexivity.
Qed.
Lemma fl_mul x y a b : fl x a -> fl y b -> Rabs (rnd (a * b)) < big -> fl (o_mul x y) (rnd (a * b)).
Proof.
  intros [A <-] [B <-] H. pose proof (Bmult_correct prec emax Hp He mode_NE x y) as C.
  rewrite Rlt_bool_true in C by exact H. destruct C as (C1 & C2 & _). split; [|exact C1].
  change (is_finite (Bmult mode_NE x y) = true). now rewrite C2, A, B.
Qed.
Lemma fl_div x y a b : fl x a -> fl y b -> b <> 0 -> Rabs (rnd (a / b)) < big -> fl (o_div x y) (rnd (a / b)).
Proof.
  intros [A <-] [B <-] N H. pose proof (Bdiv_correct prec emax Hp He mode_NE x y N) as C.
  rewrite Rlt_bool_true in C by exact H. destruct C as (C1 & C2 & _). split; [|exact C1].
  change (is_finite (Bdiv mode_NE x y) = true). now rewrite C2, A.
Qed.
Lemma fl_lit m e : fmt (IZR m * bpow radix2 e) -> Rabs (IZR m * bpow radix2 e) < big ->
  fl (o_lit m e) (IZR m * bpow radix2 e).
Proof.
  intros A B. pose proof (binary_normalize_correct prec emax Hp He mode_NE m e false) as C.
  cbv zeta in C. change (F2R {| Fnum := m; Fexp := e |}) with (IZR m * bpow radix2 e) in C.
  rewrite (round_generic radix2 _ (round_mode mode_NE) _ A) in C.
  rewrite Rlt_bool_true in C by exact B. destruct C as (C1 & C2 & _). now split.
Qed.

Lemma fl_leb x y a b : fl x a -> fl y b -> (o_leb x y = true <-> a <= b).
Proof.
  intros [A <-] [B <-]. change (o_leb x y) with (Bleb x y). rewrite Bleb_correct by assumption.
  destruct (Rle_bool_spec (B2R x) (B2R y)); split; intros; auto; try discriminate; lra.
Qed.
Lemma fl_ltb x y a b : fl x a -> fl y b -> (o_ltb x y = true <-> a < b).
Proof.
  intros [A <-] [B <-]. change (o_ltb x y) with (Bltb x y). rewrite Bltb_correct by assumption.
  destruct (Rlt_bool_spec (B2R x) (B2R y)); split; intros; auto; try discriminate; lra.
Qed.
Lemma fl_eqb x y a b : fl x a -> fl y b -> (o_eqb x y = true <-> a = b).
Proof.
  intros [A <-] [B <-]. change (o_eqb x y) with (Beqb x y). rewrite Beqb_correct by assumption.
  destruct (Req_bool_spec (B2R x) (B2R y)); split; intros; auto; try discriminate; contradiction.
Qed.
Lemma fl_isinf x r : fl x r -> o_isinf x = false.
Proof. intros [A _]. destruct x; try reflexivity; discriminate. Qed.

Lemma fl_eps : fl o_eps (bpow radix2 (1 - prec)).
Proof.
  pose proof He as E. unfold Prec_lt_emax, Prec_gt_0 in *.
  rewrite <- (Rmult_1_l (bpow radix2 (1 - prec))). apply (fl_lit 1 (1 - prec)).
  - rewrite Rmult_1_l. apply fmt_bpow. lia.
  - rewrite Rmult_1_l, Rabs_pos_eq by apply bpow_ge_0. apply bpow_lt. lia.
Qed.

(** Scaling by a power of two is exact away from underflow. *)
Lemma fmt_scale x e : fmt x -> (3 - emax - mag radix2 x <= e)%Z -> fmt (x * bpow radix2 e).
Proof.
  intros H L. apply (mult_bpow_exact_FLT radix2 (3 - emax - prec) prec); [exact H|]. lia.
Qed.
End FloatRound.
