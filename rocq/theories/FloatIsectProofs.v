(** * FloatIsectProofs.v - rounding errors of best_intersection_of_rays (C91) *)

From Coq Require Import ZArith Reals List Bool Lra Lia Psatz.
From Flocq Require Import Core BinarySingleNaN.
From Verif Require Import Scalar Linalg Bundles RayIntersection Spec SpecIsect SpecTri SpecFloatErr SpecFloatIsect RealBase VecLemmas FloatBase FloatRound FloatErrProofs FloatApprox FloatDirProofs IsectBase IsectProofs.
Import ListNotations.

Section Terms.
Variables (prec emax : Z) (Hp : Prec_gt_0 prec) (He : Prec_lt_emax prec emax).
Variables fsin fcos : binary_float prec emax -> binary_float prec emax.
Local Notation F := (binary_float prec emax).
Local Hint Extern 0 (Ops (binary_float prec emax)) =>
  exact (B_ops prec emax Hp He fsin fcos) : typeclass_instances.
Local Open Scope R_scope.
Local Notation u := (bpow radix2 (- prec)).
Local Notation big := (bpow radix2 emax).
Local Notation tiny := (bpow radix2 (2 - emax)).
Local Notation flr := (fl prec emax).
Local Notation app := (app prec emax (bpow radix2 (- prec))).
Hypotheses (P11 : (11 <= prec)%Z).
Variable E : Z.
Hypotheses (E0 : (0 <= E)%Z) (E2 : (2 * E + 34 <= emax)%Z).

Lemma vunit_comp d : d <> vO -> Rabs (vx (vunit d)) <= 1 /\ Rabs (vy (vunit d)) <= 1 /\ Rabs (vz (vunit d)) <= 1.
Proof. intros H. pose proof (comp_le (vunit d)) as C. now rewrite vunit_len in C by exact H. Qed.
Lemma fl_mone : flr o_mone (-1).
Proof.
  unfold o_mone. replace (-1) with (IZR (-1) * bpow radix2 0) by (simpl; ring).
  apply (fl_lit prec emax Hp He fsin fcos); simpl (bpow radix2 0).
  - replace (-1 * 1) with (- 1) by ring. apply fmt_opp. apply (fmt_bpow prec emax Hp 0). lia.
  - replace (-1 * 1) with (- (1)) by ring. rewrite Rabs_Ropp, Rabs_R1. apply (bpow_lt radix2 0). lia.
Qed.

Lemma ray_sized_dir {C} M (r : Ray C F) : ray_sized E M r -> vreal (ray_direction r) <> vO.
Proof.
  intros (_ & _ & L) Z. rewrite Z in L. replace (vlen vO) with 0 in L.
  - pose proof (bpow_gt_0 radix2 (- E)). lra.
  - symmetry. unfold vlen. rewrite vdot_O_r. apply sqrt_0.
Qed.
Let T1 : tiny <= 1. Proof. apply (bpow_le radix2 _ 0). lia. Qed.
Let B1 : 2 ^ 34 <= big. Proof. replace (2 ^ 34) with (bpow radix2 34) by (simpl; lra). apply bpow_le. lia. Qed.

Lemma sq1_app x a : app x a 1 5.02 -> app (powi2 x + o_mone)%S (a * a - 1) 1 25.
Proof.
  intros X. assert (A : Rabs a <= 1) by (destruct X as (? & _ & _ & ?); assumption).
  assert (L : 0 <= a * a <= 1) by (apply Rabs_le_inv in A; nra).
  assert (S : app (o_mul x x) (a * a) (1 * 1) 11.1).
  { apply (app_mul prec emax Hp He fsin fcos _ (Rle_refl _) (u11 prec P11) x x a a 1 1 5.02 5.02); try assumption; try lra. }
  pose proof (app_exact prec emax (bpow radix2 (- prec)) o_mone (-1) 1 fl_mone ltac:(rewrite Rabs_left; lra)) as N.
  apply (app_weak prec emax _ (Rle_refl _)) with (W := 1 * 1 + 1) (k := 12.2); [|apply Rabs_le; lra|lra].
  unfold Rminus. apply (app_add prec emax Hp He fsin fcos _ (Rle_refl _) (u11 prec P11) _ _ _ _ (1 * 1) 1 11.1 0 11.1); try assumption; try lra.
Qed.
Lemma prod_app x y a b : app x a 1 5.02 -> app y b 1 5.02 -> app (x * y)%S (a * b) 1 25.
Proof.
  intros X Y. rewrite <- (Rmult_1_r 1).
  apply (app_mul prec emax Hp He fsin fcos _ (Rle_refl _) (u11 prec P11) x y a b 1 1 5.02 5.02); try assumption; try lra.
Qed.
Lemma comb_app a b c x y z (p q r : R) f g h M : flr a f -> flr b g -> flr c h -> 1 <= M <= bpow radix2 E ->
  Rabs f <= M -> Rabs g <= M -> Rabs h <= M -> app x p 1 25 -> app y q 1 25 -> app z r 1 25 ->
  app (a * x + b * y + c * z)%S (f * p + g * q + h * r) (3 * M) 28.2.
Proof.
  intros A B C MM AM BM CM X Y Z.
  assert (BB : 8 * M < big).
  { apply Rle_lt_trans with (bpow radix2 (3 + E)); [rewrite bpow_plus; simpl (bpow radix2 3); lra|apply bpow_lt; lia]. }
  assert (BB2 : 16 * M < big).
  { apply Rle_lt_trans with (bpow radix2 (4 + E)); [rewrite bpow_plus; simpl (bpow radix2 4); lra|apply bpow_lt; lia]. }
  assert (P : forall t v k s, flr t k -> Rabs k <= M -> app v s 1 25 -> app (o_mul t v) (k * s) (M * 1) 26.02).
  { intros t v k s T K V. apply (app_mul prec emax Hp He fsin fcos _ (Rle_refl _) (u11 prec P11) t v k s M 1 0 25); try lra; [now apply app_exact|exact V]. }
  apply (app_grow prec emax _ (Rle_refl _)) with (W := M * 1 + M * 1 + M * 1) (k := 28.15); [|lra|lra].
  apply (app_add prec emax Hp He fsin fcos _ (Rle_refl _) (u11 prec P11) _ _ _ _ (M * 1 + M * 1) (M * 1) 27.1 26.02 27.1); try lra; [|now apply P].
  apply (app_add prec emax Hp He fsin fcos _ (Rle_refl _) (u11 prec P11) _ _ _ _ (M * 1) (M * 1) 26.02 26.02 26.02); try lra; now apply P.
Qed.

Lemma ray_terms {C} M (r : Ray C F) : 1 <= M <= bpow radix2 E -> ray_sized E M r ->
  (app (t_xx r) (t_xx (ray_real r)) 1 25 /\ app (t_yy r) (t_yy (ray_real r)) 1 25 /\ app (t_zz r) (t_zz (ray_real r)) 1 25 /\
   app (t_xy r) (t_xy (ray_real r)) 1 25 /\ app (t_xz r) (t_xz (ray_real r)) 1 25 /\ app (t_yz r) (t_yz (ray_real r)) 1 25) /\
  (app (t_cx r) (t_cx (ray_real r)) (3 * M) 28.2 /\ app (t_cy r) (t_cy (ray_real r)) (3 * M) 28.2 /\
   app (t_cz r) (t_cz (ray_real r)) (3 * M) 28.2).
Proof.
  intros MM (CC & FD & LD).
  destruct (normalize_app prec emax Hp He fsin fcos P11 E E0 ltac:(lia) _ FD LD) as (X & Y & Z).
  assert (TT : (app (t_xx r) (t_xx (ray_real r)) 1 25 /\ app (t_yy r) (t_yy (ray_real r)) 1 25 /\ app (t_zz r) (t_zz (ray_real r)) 1 25 /\
   app (t_xy r) (t_xy (ray_real r)) 1 25 /\ app (t_xz r) (t_xz (ray_real r)) 1 25 /\ app (t_yz r) (t_yz (ray_real r)) 1 25)).
  { unfold t_xx, t_yy, t_zz, t_xy, t_xz, t_yz, rdir. cbn [ray_real ray_direction]. rewrite v3_normalize_R, o_mone_R.
    repeat split; first [now apply sq1_app|now apply prod_app]. }
  split; [exact TT|]. destruct TT as (A1 & A2 & A3 & A4 & A5 & A6).
  destruct CC as ((CX & CX') & (CY & CY') & (CZ & CZ')). apply fl_finite in CX, CY, CZ.
  unfold t_cx, t_cy, t_cz.
  repeat split; (apply (comb_app _ _ _ _ _ _ _ _ _ _ _ _ M CX CY CZ MM); [apply CX'|apply CY'|apply CZ'|assumption..]).
Qed.
End Terms.
