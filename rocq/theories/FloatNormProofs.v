(** * FloatNormProofs.v - what from_normalized_3x4_matrix accepts in IEEE arithmetic (C19) *)

From Coq Require Import ZArith Reals List Bool Lra Lia Psatz.
From Flocq Require Import Core BinarySingleNaN Sterbenz.
From Verif Require Import Scalar Linalg Bundles Perspective FloatBase FloatRound IntrinsicsProofs.

Section FloatNorm.
Variables (prec emax : Z) (Hp : Prec_gt_0 prec) (He : Prec_lt_emax prec emax).
Variables fsin fcos : binary_float prec emax -> binary_float prec emax.
Hypotheses (Hp3 : (3 <= prec)%Z) (Hemax : (prec + 2 <= emax)%Z).
Local Notation F := (binary_float prec emax).
Local Hint Extern 0 (Ops (binary_float prec emax)) =>
  exact (B_ops prec emax Hp He fsin fcos) : typeclass_instances.
Local Open Scope R_scope.
Local Notation eps := (bpow radix2 (1 - prec)).
Local Notation big := (bpow radix2 emax).
Local Notation flr := (fl prec emax).
Local Notation rnd := (rnd prec emax).
Local Notation fmt := (fmt prec emax).

Lemma eps_small : 0 < eps <= / 4.
Proof.
  split; [apply bpow_gt_0|]. apply Rle_trans with (bpow radix2 (-2)); [apply bpow_le; lia|].
  simpl; lra.
Qed.
Lemma big_1 : 2 < big.
Proof.
  apply Rlt_le_trans with (bpow radix2 2); [simpl; lra|]. apply bpow_le. lia.
Qed.
Lemma fmt_1 : fmt 1.
Proof. apply (fmt_bpow prec emax Hp 0). lia. Qed.
Lemma fmt_eps : fmt eps.
Proof. apply fmt_bpow; [assumption|lia]. Qed.

Lemma relative_eq_nonfinite (x b : F) : flr b (B2R b) -> is_finite x = false -> relative_eq x b = false.
Proof.
  intros [Fb _] H. destruct x as [s|s| |s m e B]; try discriminate; unfold relative_eq.
  - replace (o_eqb (B754_infinity s) b) with false; [reflexivity|].
    destruct b as [t|t| |t]; try discriminate; destruct s; reflexivity.
  - replace (o_eqb B754_nan b) with false by (destruct b; reflexivity).
    replace (orb _ _) with false by (destruct b; try reflexivity; discriminate).
    rewrite sub_nan_l, abs_nan, !leb_nan_l. reflexivity.
Qed.

(** Multiplication of [x >= eps] by [eps]: at most half of [x]. *)
Lemma mul_eps_half x : fmt x -> eps <= x -> rnd (x * eps) <= x * / 2.
Proof.
  intros Fx L. pose proof eps_small as E.
  assert (X0 : 0 < x) by lra.
  apply rnd_le_fmt; [assumption| |nra].
  change (/ 2) with (bpow radix2 (-1)). apply fmt_scale; [assumption|].
  assert (2 - prec <= mag radix2 x)%Z.
  { apply mag_ge_bpow. rewrite Rabs_pos_eq by lra. replace (2 - prec - 1)%Z with (1 - prec)%Z by lia. lra. }
  lia.
Qed.

Lemma relative_eq_0_iff (x : F) :
  relative_eq x o_zero = true <-> is_finite x = true /\ Rabs (B2R x) <= eps.
Proof.
  destruct (is_finite x) eqn:Fx.
  2:{ rewrite relative_eq_nonfinite; [|split; reflexivity|assumption]. split; [discriminate|intros []; discriminate]. }
  assert (X : flr x (B2R x)) by (split; auto). set (r := B2R x) in *.
  pose proof (fl_zero prec emax Hp He fsin fcos) as Z0.
  pose proof (fl_eps prec emax Hp He fsin fcos) as E0.
  pose proof eps_small as ES.
  pose proof (fl_fmt prec emax _ _ X) as FX.
  pose proof (fl_lt_big prec emax _ _ X) as BX. unfold FloatRound.big in BX.
  assert (D : flr (o_abs (o_sub x o_zero)) (Rabs r)).
  { apply fl_abs; try assumption. pose proof (fl_sub prec emax Hp He fsin fcos _ _ _ _ X Z0) as S.
    rewrite Rminus_0_r in S. rewrite rnd_id in S by assumption. now apply S. }
  split.
  - intros H. split; [reflexivity|]. apply Rnot_lt_le. intros L.
    unfold relative_eq in H.
    destruct (o_eqb x o_zero) eqn:Q.
    { apply (fl_eqb prec emax Hp He fsin fcos _ _ _ _ X Z0) in Q. rewrite Q, Rabs_R0 in L. lra. }
    rewrite (fl_isinf prec emax Hp He fsin fcos _ _ X), (fl_isinf prec emax Hp He fsin fcos _ _ Z0) in H.
    cbn [orb] in H.
    destruct (o_leb (o_abs (o_sub x o_zero)) o_eps) eqn:Q1.
    { apply (fl_leb prec emax Hp He fsin fcos _ _ _ _ D E0) in Q1. lra. }
    pose proof (fl_abs prec emax Hp He fsin fcos _ _ X) as AX.
    pose proof (fl_abs prec emax Hp He fsin fcos _ _ Z0) as AZ. rewrite Rabs_R0 in AZ.
    destruct (o_ltb (o_abs x) (o_abs o_zero)) eqn:Q2.
    { apply (fl_ltb prec emax Hp He fsin fcos _ _ _ _ AX AZ) in Q2. pose proof (Rabs_pos r). lra. }
    assert (ML := mul_eps_half (Rabs r) (fmt_abs _ _ _ FX) (Rlt_le _ _ L)).
    assert (M0 : 0 <= rnd (Rabs r * eps)) by (apply rnd_ge_fmt; [assumption|apply fmt_0|apply Rmult_le_pos; [apply Rabs_pos|lra]]).
    assert (M : flr (o_mul (o_abs x) o_eps) (rnd (Rabs r * eps))).
    { apply fl_mul; auto. unfold FloatRound.big. rewrite Rabs_pos_eq by assumption. pose proof (Rabs_pos r). lra. }
    apply (fl_leb prec emax Hp He fsin fcos _ _ _ _ D M) in H. lra.
  - intros [_ L]. unfold relative_eq.
    destruct (o_eqb x o_zero); [reflexivity|].
    rewrite (fl_isinf prec emax Hp He fsin fcos _ _ X), (fl_isinf prec emax Hp He fsin fcos _ _ Z0). cbn [orb].
    now rewrite (proj2 (fl_leb prec emax Hp He fsin fcos _ _ _ _ D E0) L).
Qed.

(** Multiplication of [x >= 1] by [eps] is exact. *)
Lemma mul_eps_exact x : fmt x -> 1 <= x -> rnd (x * eps) = x * eps.
Proof.
  intros Fx L. apply rnd_id. apply fmt_scale; [assumption|].
  assert (1 <= mag radix2 x)%Z by (apply mag_ge_bpow; rewrite Rabs_pos_eq by lra; simpl; lra).
  lia.
Qed.
(** Between 1 and 2 floats are multiples of [eps]. *)
Lemma grid_1_2 x : fmt x -> 1 <= x < 2 -> exists m : Z, x = IZR m * eps.
Proof.
  intros Fx L. assert (M : mag radix2 x = 1%Z :> Z).
  { apply mag_unique. rewrite Rabs_pos_eq by lra. simpl; lra. }
  unfold FloatRound.fmt, generic_format in Fx. unfold scaled_mantissa, cexp in Fx. rewrite M in Fx.
  replace (SpecFloat.fexp prec emax 1) with (1 - prec)%Z in Fx
    by (unfold SpecFloat.fexp, SpecFloat.emin; lia).
  eexists. exact Fx.
Qed.
Lemma above_one_eps x : fmt x -> 1 + eps < x -> x < 2 -> 2 * eps <= x - 1.
Proof.
  intros Fx L U. pose proof eps_small as E.
  destruct (grid_1_2 x Fx) as (m & Em); [lra|].
  destruct (grid_1_2 1 fmt_1) as (n & En); [lra|].
  assert (G : IZR (n + 1) * eps < IZR m * eps) by (rewrite plus_IZR; lra).
  apply Rmult_lt_reg_r in G; [|lra]. apply lt_IZR in G.
  assert (G' : IZR (n + 2) * eps <= IZR m * eps) by (apply Rmult_le_compat_r; [lra|apply IZR_le; lia]).
  rewrite plus_IZR in G'. lra.
Qed.

Lemma relative_eq_1_iff (x : F) :
  relative_eq x o_one = true <-> is_finite x = true /\ Rabs (B2R x - 1) <= eps.
Proof.
  pose proof (fl_one prec emax Hp He fsin fcos) as Z0.
  destruct (is_finite x) eqn:Fx.
  2:{ rewrite relative_eq_nonfinite; [|destruct Z0 as [? ->]; split; auto; apply Bone_correct|assumption].
      split; [discriminate|intros []; discriminate]. }
  assert (X : flr x (B2R x)) by (split; auto). set (r := B2R x) in *.
  pose proof (fl_eps prec emax Hp He fsin fcos) as E0.
  pose proof eps_small as ES.
  pose proof (fl_fmt prec emax _ _ X) as FX.
  pose proof (fl_lt_big prec emax _ _ X) as BX. unfold FloatRound.big in BX.
  pose proof big_1 as B1.
  pose proof (fl_abs prec emax Hp He fsin fcos _ _ X) as AX.
  pose proof (fl_abs prec emax Hp He fsin fcos _ _ Z0) as AZ. rewrite Rabs_R1 in AZ.
  assert (EX : / 2 <= r <= 2 -> rnd (r - 1) = r - 1).
  { intros G. apply rnd_id. apply sterbenz; auto using fmt_1.
    - apply fexp_correct; assumption.
    - apply (FLT_exp_monotone (3 - emax - prec) prec).
    - apply fmt_1.
    - lra. }
  split.
  - intros H. split; [reflexivity|]. apply Rnot_lt_le. intros L.
    unfold relative_eq in H.
    destruct (o_eqb x o_one) eqn:Q.
    { apply (fl_eqb prec emax Hp He fsin fcos _ _ _ _ X Z0) in Q.
      rewrite Q, Rminus_diag_eq, Rabs_R0 in L by reflexivity. lra. }
    rewrite (fl_isinf prec emax Hp He fsin fcos _ _ X), (fl_isinf prec emax Hp He fsin fcos _ _ Z0) in H.
    cbn [orb] in H.
    (* the scaled tolerance *)
    set (t := if Rlt_bool (Rabs r) 1 then eps else Rabs r * eps).
    assert (TT : flr (o_mul (if o_ltb (o_abs x) (o_abs o_one) then o_abs o_one else o_abs x) o_eps) t).
    { unfold t. destruct (Rlt_bool_spec (Rabs r) 1) as [G|G].
      - rewrite (proj2 (fl_ltb prec emax Hp He fsin fcos _ _ _ _ AX AZ) G).
        pose proof (fl_mul prec emax Hp He fsin fcos _ _ _ _ AZ E0) as M. rewrite Rmult_1_l in M.
        rewrite rnd_id in M by (assumption || apply fmt_eps). apply M.
        unfold FloatRound.big. rewrite Rabs_pos_eq; lra.
      - destruct (o_ltb (o_abs x) (o_abs o_one)) eqn:Q2.
        { apply (fl_ltb prec emax Hp He fsin fcos _ _ _ _ AX AZ) in Q2. lra. }
        pose proof (fl_mul prec emax Hp He fsin fcos _ _ _ _ AX E0) as M.
        rewrite mul_eps_exact in M by (assumption || apply fmt_abs; assumption).
        apply M. unfold FloatRound.big. rewrite Rabs_pos_eq by nra. nra. }
    destruct (Rlt_le_dec (Rabs (rnd (r - 1))) big) as [NO|OV].
    + assert (D : flr (o_abs (o_sub x o_one)) (Rabs (rnd (r - 1)))).
      { apply fl_abs; try assumption. apply fl_sub; auto. }
      assert (K : eps < Rabs (rnd (r - 1)) /\ t < Rabs (rnd (r - 1))).
      { destruct (Rlt_le_dec r (/ 2)) as [C|C].
        - destruct (Rle_lt_dec (-1) r) as [C1|C1].
          + assert (/ 2 <= Rabs (rnd (r - 1))).
            { apply rnd_abs_ge; [assumption|apply (fmt_bpow prec emax Hp (-1)); lia|].
              rewrite Rabs_left; lra. }
            split; [lra|]. unfold t. destruct (Rlt_bool_spec (Rabs r) 1); [lra|].
            assert (Rabs r <= 1) by (apply Rabs_le; lra). nra.
          + assert (Rabs r <= Rabs (rnd (r - 1))).
            { apply rnd_abs_ge; [assumption|now apply fmt_abs|]. rewrite !Rabs_left; lra. }
            assert (1 < Rabs r) by (rewrite Rabs_left; lra).
            split; [lra|]. unfold t. destruct (Rlt_bool_spec (Rabs r) 1); nra.
        - destruct (Rle_lt_dec r 2) as [C2|C2].
          + rewrite EX by lra. split; [lra|]. unfold t.
            destruct (Rlt_bool_spec (Rabs r) 1) as [G|G]; [lra|].
            rewrite Rabs_pos_eq in G by lra.
            rewrite (Rabs_pos_eq r) by lra. rewrite Rabs_pos_eq in L |- * by lra.
            destruct (Req_dec r 2) as [->|N2]; [lra|].
            pose proof (above_one_eps r FX). nra.
          + assert (r * / 2 <= Rabs (rnd (r - 1))).
            { apply rnd_abs_ge; [assumption| |rewrite Rabs_pos_eq; lra].
              change (/ 2) with (bpow radix2 (-1)). apply fmt_scale; [assumption|].
              assert (1 <= mag radix2 r)%Z by (apply mag_ge_bpow; rewrite Rabs_pos_eq by lra; simpl; lra).
              lia. }
            split; [lra|]. unfold t. rewrite (Rabs_pos_eq r) by lra.
            destruct (Rlt_bool_spec r 1); nra. }
      destruct (o_leb (o_abs (o_sub x o_one)) o_eps) eqn:Q1.
      { apply (fl_leb prec emax Hp He fsin fcos _ _ _ _ D E0) in Q1. lra. }
      apply (fl_leb prec emax Hp He fsin fcos _ _ _ _ D TT) in H. lra.
    + destruct (fl_sub_overflow prec emax Hp He fsin fcos _ _ _ _ X Z0 OV) as [s Es].
      rewrite Es in H.
      assert (I : forall y v, flr y v -> o_leb (o_abs (B754_infinity s : F)) y = false).
      { intros y v [Fy _]. destruct y; try discriminate; reflexivity. }
      rewrite (I _ _ E0), (I _ _ TT) in H. discriminate.
  - intros [_ L]. unfold relative_eq.
    destruct (o_eqb x o_one); [reflexivity|].
    rewrite (fl_isinf prec emax Hp He fsin fcos _ _ X), (fl_isinf prec emax Hp He fsin fcos _ _ Z0). cbn [orb].
    assert (D : flr (o_abs (o_sub x o_one)) (Rabs (r - 1))).
    { assert (/ 2 <= r <= 2) by (apply Rabs_le_inv in L; lra).
      apply fl_abs; try assumption. pose proof (fl_sub prec emax Hp He fsin fcos _ _ _ _ X Z0) as S.
      rewrite EX in S by assumption. apply S. unfold FloatRound.big. lra. }
    now rewrite (proj2 (fl_leb prec emax Hp He fsin fcos _ _ _ _ D E0) L).
Qed.

(** Not a finite float, or away from [c] by more than [eps]. *)
Definition off (x : F) (c : R) : Prop := is_finite x = false \/ eps < Rabs (B2R x - c).

Lemma C19_ieee_lemma (p : M34 F) :
  from_normalized_3x4_matrix p = Err InvalidInput <->
  off (p03 p) 0 \/ off (p10 p) 0 \/ off (p13 p) 0 \/ off (p20 p) 0 \/ off (p21 p) 0 \/ off (p23 p) 0 \/
  off (p22 p) 1.
Proof.
  rewrite from_normalized_err_iff. rewrite !relative_eq_0_iff, relative_eq_1_iff.
  assert (N : forall (x : F) c, ~ (is_finite x = true /\ Rabs (B2R x - c) <= eps) <-> off x c).
  { intros x c. unfold off. destruct (is_finite x); split; intros H.
    - right. apply Rnot_le_lt. intros L. apply H; auto.
    - destruct H as [H|H]; [discriminate|]. intros [_ L]. lra.
    - now left.
    - intros [? _]; discriminate. }
  assert (N0 : forall (x : F), ~ (is_finite x = true /\ Rabs (B2R x) <= eps) <-> off x 0).
  { intros x. rewrite <- N, Rminus_0_r. tauto. }
  now rewrite !N0, N.
Qed.
End FloatNorm.
