(** * FloatBase.v - NaN propagation and zero arithmetic of the IEEE instance *)

From Coq Require Import ZArith Reals List Bool Lra.
From Flocq Require Import Core BinarySingleNaN.
From Verif Require Import Scalar Linalg Spec.
Import ListNotations.

Section FloatBase.
Variables (prec emax : Z) (Hp : Prec_gt_0 prec) (He : Prec_lt_emax prec emax).
Variables fsin fcos : binary_float prec emax -> binary_float prec emax.
Local Notation F := (binary_float prec emax).
Local Hint Extern 0 (Ops (binary_float prec emax)) =>
  exact (B_ops prec emax Hp He fsin fcos) : typeclass_instances.
Local Notation nan := (B754_nan : F).

Lemma add_nan_l (x : F) : o_add nan x = nan. Proof. destruct x; reflexivity. Qed.
Lemma add_nan_r (x : F) : o_add x nan = nan. Proof. destruct x; reflexivity. Qed.
Lemma sub_nan_l (x : F) : o_sub nan x = nan. Proof. destruct x; reflexivity. Qed.
Lemma sub_nan_r (x : F) : o_sub x nan = nan. Proof. destruct x; reflexivity. Qed.
Lemma mul_nan_l (x : F) : o_mul nan x = nan. Proof. destruct x; reflexivity. Qed.
Lemma mul_nan_r (x : F) : o_mul x nan = nan. Proof. destruct x; reflexivity. Qed.
Lemma div_nan_l (x : F) : o_div nan x = nan. Proof. destruct x; reflexivity. Qed.
Lemma div_nan_r (x : F) : o_div x nan = nan. Proof. destruct x; reflexivity. Qed.
Lemma neg_nan : o_neg nan = nan. Proof. reflexivity. Qed.
Lemma sqrt_nan : o_sqrt nan = nan. Proof. reflexivity. Qed.
Lemma abs_nan : o_abs nan = nan. Proof. reflexivity. Qed.
Lemma ltb_nan_l (x : F) : o_ltb nan x = false. Proof. destruct x; reflexivity. Qed.
Lemma ltb_nan_r (x : F) : o_ltb x nan = false. Proof. destruct x as [[]|[]| |[]]; reflexivity. Qed.
Lemma leb_nan_l (x : F) : o_leb nan x = false. Proof. destruct x; reflexivity. Qed.
Lemma leb_nan_r (x : F) : o_leb x nan = false. Proof. destruct x as [[]|[]| |[]]; reflexivity. Qed.

Definition is_zero (x : F) : Prop := exists s, x = B754_zero s.

Lemma sub_self (x : F) : is_zero (o_sub x x) \/ o_sub x x = nan.
Proof.
  destruct (is_finite x) eqn:Fx.
  - left. pose proof (Bminus_correct prec emax Hp He mode_NE x x Fx Fx) as H.
    rewrite Rminus_diag_eq in H by reflexivity.
    rewrite round_0 in H by auto with typeclass_instances. rewrite Rabs_R0, Rlt_bool_true in H
      by apply bpow_gt_0.
    destruct H as (H & H1 & _). change (is_zero (Bminus mode_NE x x)).
    destruct (Bminus mode_NE x x) as [s|s| |s m e B]; try discriminate; [now exists s|].
    simpl in H. apply eq_0_F2R in H. destruct s; discriminate.
  - destruct x as [s|s| |s m e B]; try discriminate; right; [|reflexivity]. destruct s; reflexivity.
Qed.
Lemma zero_mul_zero x y : is_zero x -> is_zero y -> is_zero (o_mul x y).
Proof. intros [s ->] [t ->]. eexists; reflexivity. Qed.
Lemma zero_add_zero x y : is_zero x -> is_zero y -> is_zero (o_add x y).
Proof. intros [s ->] [t ->]. destruct s, t; eexists; reflexivity. Qed.
Lemma zero_sub_zero x y : is_zero x -> is_zero y -> is_zero (o_sub x y).
Proof. intros [s ->] [t ->]. destruct s, t; eexists; reflexivity. Qed.
Lemma zero_sqrt x : is_zero x -> is_zero (o_sqrt x).
Proof. intros [s ->]. eexists; reflexivity. Qed.
Lemma zero_neg x : is_zero x -> is_zero (o_neg x).
Proof. intros [s ->]. eexists; reflexivity. Qed.
Lemma zero_div_zero x y : is_zero x -> is_zero y -> o_div x y = nan.
Proof. intros [s ->] [t ->]. reflexivity. Qed.
(** A zero divided by or multiplied into anything is a zero or NaN. *)
Lemma zero_mul_l x y : is_zero x -> is_zero (o_mul x y) \/ o_mul x y = nan.
Proof. intros [s ->]. destruct y; [left|right|right|left]; try reflexivity; eexists; reflexivity. Qed.
Lemma zero_mul_r x y : is_zero y -> is_zero (o_mul x y) \/ o_mul x y = nan.
Proof. intros [s ->]. destruct x; [left|right|right|left]; try reflexivity; eexists; reflexivity. Qed.

(** Zero or NaN. *)
Definition zn (x : F) : Prop := is_zero x \/ x = nan.
Lemma zn_mul_l x y : zn x -> zn (o_mul x y).
Proof. intros [H| ->]; [now apply zero_mul_l|right; apply mul_nan_l]. Qed.
Lemma zn_mul_r x y : zn y -> zn (o_mul x y).
Proof. intros [H| ->]; [now apply zero_mul_r|right; apply mul_nan_r]. Qed.
Lemma zn_add x y : zn x -> zn y -> zn (o_add x y).
Proof.
  intros [H| ->] [K| ->]; try (right; first [apply add_nan_l|apply add_nan_r]).
  left; now apply zero_add_zero.
Qed.
Lemma zn_sub x y : zn x -> zn y -> zn (o_sub x y).
Proof.
  intros [H| ->] [K| ->]; try (right; first [apply sub_nan_l|apply sub_nan_r]).
  left; now apply zero_sub_zero.
Qed.
Lemma zn_div_l x y : zn x -> zn (o_div x y).
Proof.
  intros [[s ->]| ->]; [|right; apply div_nan_l].
  destruct y; [right; reflexivity|left|right; reflexivity|left]; eexists; reflexivity.
Qed.
Lemma zn_neg x : zn x -> zn (o_neg x).
Proof. intros [H| ->]; [left; now apply zero_neg|now right]. Qed.
Lemma zn_sub_self x : zn (o_sub x x).
Proof. apply sub_self. Qed.

Definition nan3 : V3 F := mkV3 nan nan nan.
Definition nan4 : Quat F := mkQuat nan nan nan nan.
End FloatBase.

Ltac nanrw := repeat first
  [ rewrite add_nan_l | rewrite add_nan_r | rewrite sub_nan_l | rewrite sub_nan_r
  | rewrite mul_nan_l | rewrite mul_nan_r | rewrite div_nan_l | rewrite div_nan_r
  | rewrite neg_nan | rewrite sqrt_nan | rewrite abs_nan
  | rewrite ltb_nan_l | rewrite ltb_nan_r | rewrite leb_nan_l | rewrite leb_nan_r ].
