(** * FloatProjProofs.v - rounding errors of projections from the world (C70, C71) *)

From Coq Require Import ZArith Reals List Bool Lra Lia Psatz.
From Flocq Require Import Core BinarySingleNaN.
From Verif Require Import Scalar Linalg Bundles Extrinsics Perspective Orthographic Camera Rows Spec SpecFloatErr RealBase VecLemmas FloatBase FloatRound FloatErrProofs FloatApprox FloatRigidProofs.
Import ListNotations.

Section Proj.
Variables (prec emax : Z) (Hp : Prec_gt_0 prec) (He : Prec_lt_emax prec emax).
Variables fsin fcos : binary_float prec emax -> binary_float prec emax.
Local Notation F := (binary_float prec emax).
Local Hint Extern 0 (Ops (binary_float prec emax)) =>
  exact (B_ops prec emax Hp He fsin fcos) : typeclass_instances.
Local Open Scope R_scope.
(** the unit in which errors are counted *)
Variable u : R.
Local Notation big := (bpow radix2 emax).
Local Notation tiny := (bpow radix2 (2 - emax)).
Local Notation flr := (fl prec emax).
Local Instance fexp_valid : Valid_exp (SpecFloat.fexp prec emax) := fexp_correct prec emax Hp.
Local Notation app := (app prec emax u).
Hypotheses (UR : bpow radix2 (- prec) <= u) (U11 : u <= / 2048) (E17 : (17 <= emax)%Z).
Local Notation u_pos := (ud_pos prec u UR).
Local Notation u11 := U11.
Local Notation tiny1 := (tiny_le_1 emax E17).
Local Notation fl0 := (fl_zero prec emax Hp He fsin fcos).
Local Notation fl1 := (fl_one prec emax Hp He fsin fcos).

Lemma mul_1_l x a : flr x a -> flr (o_mul o_one x) a.
Proof.
  intros X. pose proof (fl_mul prec emax Hp He fsin fcos _ _ _ _ fl1 X) as H.
  rewrite Rmult_1_l in H. rewrite rnd_id in H by (assumption || exact (fl_fmt _ _ _ _ X)). apply H.
  exact (fl_lt_big _ _ _ _ X).
Qed.
Lemma app_plus_0 x z a W k : app x a W k -> flr z 0 -> app (o_add x z) a W k.
Proof. intros (r & X & D) Z. exists r. split; [now apply add_0_r|exact D]. Qed.
Lemma app_0_plus x z a W k : app x a W k -> flr z 0 -> app (o_add z x) a W k.
Proof. intros (r & X & D) Z. exists r. split; [now apply add_0_l|exact D]. Qed.
Lemma zero_mul x : is_finite x = true -> flr (o_mul o_zero x) 0.
Proof. intros X. apply (mul_0_l prec emax Hp He fsin fcos x o_zero (B2R x)); [apply fl0|now split]. Qed.
Lemma sized_app W x : sized 0 W x -> app x (B2R x) W 0.
Proof. intros (A & B & C). apply app_exact; try assumption. now split. Qed.

(** division of two approximations; [z] is at least [d] *)
Lemma div_app rh zh r z P A kk a d : flr rh (B2R rh) -> flr zh (B2R zh) ->
  0 < d <= z -> 1 <= P -> 1 <= a <= 2 -> 0 <= A -> 0 <= kk ->
  Rabs (B2R rh - r) <= P * A -> Rabs (B2R zh - z) <= kk -> Rabs (r / z) <= a * P ->
  64 * kk <= d -> 4 * A <= d -> 8 * P < big ->
  near (1.016 * P * (A + a * kk) / d + 2.3 * u * P) (o_div rh zh) (r / z).
Proof.
  intros R Z D P1 A1 A0 K0 DR DZ RZ KD AD PB. pose proof u_pos. pose proof u11. pose proof tiny1.
  set (rr := B2R rh) in *. set (zz := B2R zh) in *.
  assert (Z1 : 63 / 64 * d <= zz) by (apply Rabs_le_inv in DZ; lra).
  assert (Zp : 0 < zz) by lra.
  assert (Q : Rabs (rr / zz - r / z) <= P * (A + a * kk) / zz).
  { replace (rr / zz - r / z) with (((rr - r) + (r / z) * (z - zz)) / zz) by (field; lra).
    unfold Rdiv at 1. rewrite Rabs_mult, (Rabs_pos_eq (/ zz)) by (left; now apply Rinv_0_lt_compat).
    apply Rmult_le_compat_r; [left; now apply Rinv_0_lt_compat|].
    replace (P * (A + a * kk)) with (P * A + (a * P) * kk) by ring. apply tri; [exact DR|].
    rewrite Rabs_mult. apply Rmult_le_compat; try apply Rabs_pos; [exact RZ|]. rewrite Rabs_minus_sym. exact DZ. }
  assert (Q2 : P * (A + a * kk) / zz <= 1.016 * P * (A + a * kk) / d).
  { assert (0 <= P * (A + a * kk)) by (apply Rmult_le_pos; nra).
    replace (1.016 * P * (A + a * kk) / d) with (P * (A + a * kk) * (1.016 / d)) by (field; lra).
    unfold Rdiv at 1. apply Rmult_le_compat_l; [assumption|].
    apply Rmult_le_reg_r with zz; [exact Zp|]. rewrite Rinv_l by lra.
    apply Rmult_le_reg_r with d; [lra|]. replace (1.016 / d * zz * d) with (1.016 * zz) by (field; lra). lra. }
  assert (Q3 : 1.016 * P * (A + a * kk) / d <= 0.29 * P).
  { apply Rmult_le_reg_r with d; [lra|]. unfold Rdiv. rewrite Rmult_assoc, Rinv_l, Rmult_1_r by lra.
    assert (A + a * kk <= d * (1/4 + 1/32)) by nra. nra. }
  assert (B : Rabs (rr / zz) <= 2.3 * P).
  { replace (rr / zz) with ((rr / zz - r / z) + r / z) by ring.
    eapply Rle_trans; [apply tri; [exact Q|exact RZ]|]. nra. }
  destruct (div_err_u prec emax Hp He fsin fcos u UR rh zh rr zz (2.3 * P) R Z) as (t & (T1 & T2) & T3 & _); [lra|lra|exact B|nra|].
  split; [exact T1|]. rewrite T2.
  replace (t - r / z) with ((rr / zz - r / z) + (t - rr / zz)) by ring.
  apply tri; [lra|]. nra.
Qed.

Section Project.
Variables (k : PerspectiveParams F) (P : R).
Hypotheses (K : persp_sized P k) (P1 : 1 <= P).
Lemma project_near (yh : V3 F) (y : V3 R) W kk a d : vec_near (kk * u * W) yh y -> vle W y -> 1 <= W -> 32 * P * W < big ->
  1 <= kk <= 900 -> 0 < d <= vz y -> 64 * kk * u * W <= d -> 1 <= a <= 2 -> pix_within (a * P) (pinhole k y) ->
  pix_near ((3.06 * kk + 1.016 * a * kk + 12) * u * P * (W / d)) (persp_project_row (ip_cache_p (perspective_from k)) yh) (pinhole k y).
Proof.
  intros (NX & NY & NZ) (VX & VY & VZ) W1 WB KK D KD A12 (QX & QY).
  pose proof u_pos as U0. pose proof u11 as U1. pose proof tiny1 as T1.
  destruct K as (KFX & KFY & KS & KCX & KCY).
  apply sized_app in KFX, KFY, KS, KCX, KCY.
  assert (PW : 1 <= P * W) by nra.
  assert (AX : app (vx yh) (vx y) W kk) by (eapply near_app; [exact NX|lra|exact VX]).
  assert (AY : app (vy yh) (vy y) W kk) by (eapply near_app; [exact NY|lra|exact VY]).
  assert (AZ : app (vz yh) (vz y) W kk) by (eapply near_app; [exact NZ|lra|exact VZ]).
  pose (k1 := kk + 1 + kk / 2048). pose (k2 := k1 + 1 + k1 / 2048). pose (k3 := k2 + 1 + k2 / 2048).
  assert (K1 : 0 <= k1 <= 902) by (unfold k1; lra). assert (K2 : 0 <= k2 <= 904) by (unfold k2; lra).
  assert (K3 : 0 <= k3 <= 1.0016 * kk + 3.01) by (unfold k3, k2, k1; lra).
  assert (M1 : forall f x b, app f (B2R f) P 0 -> app x b W kk -> app (o_mul f x) (B2R f * b) (P * W) k1).
  { intros f x b Af Ax. eapply app_mul; try eassumption; try lra. unfold k1; lra. }
  assert (FX : is_finite (vx yh) = true) by apply NX. assert (FY : is_finite (vy yh) = true) by apply NY.
  assert (FZ : is_finite (vz yh) = true) by apply NZ.
  pose proof (zero_mul _ FX) as ZX. pose proof (zero_mul _ FY) as ZY.
  assert (Z1 : flr (o_mul o_zero o_one) 0) by (apply zero_mul; apply (proj1 fl1)).
  unfold persp_project_row, perspective_from, m34_mulv, v3_to_homogeneous.
  cbn [ip_cache_p p00 p01 p02 p03 p10 p11 p12 p13 p20 p21 p22 p23 wx wy wz ww vx vy vz].
  set (rz := o_add (o_add (o_add (o_mul o_zero (vx yh)) (o_mul o_zero (vy yh))) (o_mul o_one (vz yh))) (o_mul o_zero o_one)).
  assert (RZ : flr rz (B2R (vz yh))).
  { apply add_0_r; [exact Z1|]. apply add_0_l; [|apply mul_1_l; now split]. apply add_0_r; assumption. }
  set (rx := o_add (o_add (o_add (o_mul (pp_fx k) (vx yh)) (o_mul (pp_skew k) (vy yh))) (o_mul (pp_cx k) (vz yh))) (o_mul o_zero o_one)).
  assert (RX : app rx (B2R (pp_fx k) * vx y + B2R (pp_skew k) * vy y + B2R (pp_cx k) * vz y) (P * W + P * W + P * W) k3).
  { apply app_plus_0; [|exact Z1].
    eapply app_add with (k := k2) (k1 := k2) (k2 := k1); [assumption..|
      eapply app_add with (k := k1) (k1 := k1) (k2 := k1); [assumption..|now apply M1|now apply M1|lra|lra|unfold k2; lra|lra|lra|lra]|
      now apply M1|lra|unfold k2 in *; lra|unfold k3; lra|lra|lra|lra]. }
  set (ry := o_add (o_add (o_add (o_mul o_zero (vx yh)) (o_mul (pp_fy k) (vy yh))) (o_mul (pp_cy k) (vz yh))) (o_mul o_zero o_one)).
  assert (RY : app ry (B2R (pp_fy k) * vy y + B2R (pp_cy k) * vz y) (P * W + P * W + P * W) k3).
  { apply app_plus_0; [|exact Z1]. apply (app_grow prec emax u UR) with (W := P * W + P * W) (k := k2); [|lra|unfold k3; lra].
    eapply app_add with (k := k1) (k1 := k1) (k2 := k1); [assumption..|apply app_0_plus; [now apply M1|exact ZX]|now apply M1|lra|lra|unfold k2; lra|lra|lra|lra]. }
  destruct RZ as (RZ1 & RZ2).
  assert (uW : 0 < u * W) by nra.
  assert (DW : d <= W) by (apply Rabs_le_inv in VZ; lra).
  assert (Dd : 1 <= W / d) by (apply Rmult_le_reg_r with d; [lra|]; unfold Rdiv; rewrite Rmult_assoc, Rinv_l by lra; lra).
  assert (FIN : forall rh r, app rh r (P * W + P * W + P * W) k3 -> Rabs (r / vz y) <= a * P ->
    near ((3.06 * kk + 1.016 * a * kk + 12) * u * P * (W / d)) (o_div rh rz) (r / vz y)).
  { intros rh r (rr & (H1 & H2) & H3 & _) RB.
    assert (KL : kk * (u * W) <= d / 64) by lra.
    eapply near_weak.
    - apply (div_app rh rz r (vz y) P (k3 * u * (3 * W)) (kk * u * W) a d); try assumption; try (now split); try lra.
      + nra.
      + nra.
      + rewrite H2. eapply Rle_trans; [exact H3|]. right. ring.
      + rewrite RZ2. apply NZ.
      + assert (k3 * (u * W) <= 4.02 * (kk * (u * W))) by nra. lra.
      + nra.
    - replace (1.016 * P * (k3 * u * (3 * W) + a * (kk * u * W)) / d + 2.3 * u * P)
        with (u * P * (W / d) * (1.016 * (3 * k3 + a * kk)) + 2.3 * (u * P)) by (field; lra).
      replace ((3.06 * kk + 1.016 * a * kk + 12) * u * P * (W / d)) with (u * P * (W / d) * (3.06 * kk + 1.016 * a * kk + 12)) by ring.
      assert (UP : 0 < u * P) by nra.
      assert (UPD : u * P <= u * P * (W / d)).
      { rewrite <- (Rmult_1_r (u * P)) at 1. apply Rmult_le_compat_l; lra. }
      assert (1.016 * (3 * k3) <= 3.06 * kk + 9.2) by lra.
      set (t := u * P * (W / d)) in *.
      assert (t * (1.016 * (3 * k3 + a * kk)) <= t * (3.06 * kk + 9.2 + 1.016 * a * kk)) by (apply Rmult_le_compat_l; lra).
      lra. }
  assert (Zn : vz y <> 0) by lra.
  split; cbn [px py].
  - replace (px (pinhole k y)) with ((B2R (pp_fx k) * vx y + B2R (pp_skew k) * vy y + B2R (pp_cx k) * vz y) / vz y) in *
      by (unfold pinhole; cbn [px]; field; exact Zn).
    apply FIN; assumption.
  - replace (py (pinhole k y)) with ((B2R (pp_fy k) * vy y + B2R (pp_cy k) * vz y) / vz y) in *
      by (unfold pinhole; cbn [py]; field; exact Zn).
    apply FIN; assumption.
Qed.
End Project.
End Proj.
