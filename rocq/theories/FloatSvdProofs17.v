(** * FloatSvdProofs17.v - one implicit QR step with perturbed entries reduces o0^2 o1^4 (C113) *)

From Coq Require Import Reals Lra Psatz.
Local Open Scope R_scope.

Lemma abs_sq x : Rabs x * Rabs x = x * x.
Proof. rewrite <- Rabs_mult. apply Rabs_pos_eq. apply Rle_0_sqr. Qed.
Lemma sq_le_abs x y : 0 <= y -> x * x <= y * y -> Rabs x <= y.
Proof. intros H0 H. apply Rsqr_incr_0_var; [|exact H0]. unfold Rsqr. now rewrite abs_sq. Qed.
Lemma sq_scale x y k : 0 <= k -> Rabs x <= k * Rabs y -> x * x <= k * k * (y * y).
Proof. intros K H. rewrite <- (abs_sq x), <- (abs_sq y). replace (k * k * (Rabs y * Rabs y)) with (k * Rabs y * (k * Rabs y)) by ring. pose proof (Rabs_pos x). apply Rmult_le_compat; lra. Qed.
Lemma cube_low c d nu : 0 <= d -> d <= c * nu -> d * (nu * nu) <= c * (nu * nu * nu).
Proof. intros D H. replace (c * (nu * nu * nu)) with (c * nu * (nu * nu)) by ring. apply Rmult_le_compat_r; [apply Rle_0_sqr|exact H]. Qed.
Lemma prod_low a b c : 0 < c -> 0 <= a -> a * b = c * c -> b <= c -> c <= a.
Proof. intros. nra. Qed.
Local Ltac pz := repeat first [lra|apply Rle_0_sqr|apply Rabs_pos|apply Rmult_le_pos|apply Rplus_le_le_0_compat].
Local Ltac pp := repeat first [lra|apply Rmult_lt_0_compat].
Lemma pow4_le x y : 0 <= y -> x ^ 4 <= y ^ 4 -> x <= y.
Proof.
  intros H0 H. destruct (Rle_dec x 0) as [N|N]; [lra|]. apply Rnot_lt_le. intros L. apply Rnot_le_lt in N.
  assert (y * y < x * x) by nra. assert ((y * y) * (y * y) < (x * x) * (x * x)) by nra. nra.
Qed.

(** ** The arithmetic-geometric mean at the heart of it *)
Lemma amgm x y : 0 <= x -> 0 <= y -> 27 * (x * x * y) <= 4 * (x + y) ^ 3.
Proof.
  intros X Y. assert (0 <= (x - 2 * y) * (x - 2 * y)) by apply Rle_0_sqr.
  replace (4 * (x + y) ^ 3 - 27 * (x * x * y)) with ((x - 2 * y) * (x - 2 * y) * (4 * x + y)) by ring || idtac.
  assert (0 <= (x - 2 * y) * (x - 2 * y) * (4 * x + y)) by (apply Rmult_le_pos; lra). nra.
Qed.

(** [q] and [r] stand for the entries of the triangular factor *)
Section Core.
Variables a0 a1 b1 b2 al1 al2 : R.
Hypotheses (AL : al1 * al2 = b2 * b2) (A2 : al2 * al2 <= b2 * b2) (B2 : b2 <> 0) (B1 : b1 <> 0) (A1 : a1 * a1 <= 1.00001 * (al1 * al1)).
Local Notation q := (a0 * a1 - b1 * b1).
Local Notation N0 := (q * q + (a0 * a0 + b1 * b1) * (b2 * b2)).

Lemma core_ineq : 3.374 * (b1 ^ 8 * al2 ^ 4) <= N0 ^ 3.
Proof.
  assert (P1 : 0 < b1 * b1) by nra. assert (P2 : 0 < b2 * b2) by nra.
  set (h := a1 * a1 + b2 * b2). assert (Ph : 0 < h) by (unfold h; nra).
  set (t := al2 * al2) in *. assert (T0 : 0 <= t) by (unfold t; nra).
  assert (H1 : t * h <= 2.00001 * (b2 * b2 * (b2 * b2))).
  { unfold h. assert (t * (a1 * a1) <= t * (1.00001 * (al1 * al1))) by (apply Rmult_le_compat_l; assumption).
    assert (E : t * (al1 * al1) = b2 * b2 * (b2 * b2)) by (unfold t; rewrite <- AL; ring).
    assert (t * (b2 * b2) <= b2 * b2 * (b2 * b2)) by (apply Rmult_le_compat_r; lra). lra. }
  assert (H2 : h * N0 = (a0 * h - a1 * (b1 * b1)) * (a0 * h - a1 * (b1 * b1)) + b1 * b1 * (b1 * b1) * (b2 * b2) + b1 * b1 * (b2 * b2) * h) by (unfold h; ring).
  set (x := b1 * b1 * (b2 * b2)). set (y := b1 * b1 * (b1 * b1) * t / (2.00001 * (b2 * b2))).
  assert (Px : 0 < x) by (unfold x; nra).
  assert (Py : 0 <= y). { unfold y. apply Rmult_le_pos; [apply Rmult_le_pos; [nra|exact T0]|left; apply Rinv_0_lt_compat; lra]. }
  assert (H3 : x + y <= N0).
  { apply (Rmult_le_reg_l h); [exact Ph|]. rewrite H2. pose proof (Rle_0_sqr (a0 * h - a1 * (b1 * b1))) as SQ. unfold Rsqr in SQ.
    assert (HY : h * y <= b1 * b1 * (b1 * b1) * (b2 * b2)).
    { unfold y. apply (Rmult_le_reg_r (2.00001 * (b2 * b2))); [lra|]. unfold Rdiv.
      replace (h * (b1 * b1 * (b1 * b1) * t * / (2.00001 * (b2 * b2))) * (2.00001 * (b2 * b2))) with (b1 * b1 * (b1 * b1) * (t * h)) by (field; lra).
      replace (b1 * b1 * (b1 * b1) * (b2 * b2) * (2.00001 * (b2 * b2))) with (b1 * b1 * (b1 * b1) * (2.00001 * (b2 * b2 * (b2 * b2)))) by ring.
      apply Rmult_le_compat_l; [nra|exact H1]. }
    unfold x. lra. }
  assert (H4 : (x + y) ^ 3 <= N0 ^ 3) by (apply pow_incr; lra).
  pose proof (amgm x y ltac:(lra) Py) as AG.
  assert (H5 : x * x * y = b1 ^ 8 * (b2 * b2) * t / 2.00001) by (unfold x, y; field; lra).
  assert (H6 : b1 ^ 8 * al2 ^ 4 <= b1 ^ 8 * (b2 * b2) * t).
  { replace (b1 ^ 8 * al2 ^ 4) with (b1 ^ 8 * (t * t)) by (unfold t; ring). rewrite Rmult_assoc. apply Rmult_le_compat_l; [|apply Rmult_le_compat_r; lra].
    replace (b1 ^ 8) with ((b1 * b1) * (b1 * b1) * ((b1 * b1) * (b1 * b1))) by ring. assert (0 < b1 * b1 * (b1 * b1)) by nra. nra. }
  assert (H7 : 0 <= b1 ^ 8 * al2 ^ 4) by (replace (b1 ^ 8 * al2 ^ 4) with ((b1 ^ 4 * al2 ^ 2) * (b1 ^ 4 * al2 ^ 2)) by ring; apply Rle_0_sqr).
  rewrite H5 in AG. lra.
Qed.
End Core.

(** ** The step *)
Section Step.
Variables a0 a1 a2 b1 b2 al1 al2 C S x z C2 S2 n2 k3 : R.
Hypotheses (AL : al1 * al2 = b2 * b2) (A2 : Rabs al2 <= Rabs b2) (D1 : Rabs (a1 - al1) <= 1e-14) (DT : Rabs (a2 - al2) <= 1e-14).
Hypotheses (Lb1 : 4e-8 <= Rabs b1) (Lb2 : 4e-8 <= Rabs b2) (Ub2 : Rabs b2 <= 2) (HR : 1e-14 * 1e-14 * Rabs b1 <= 1e-6 * (Rabs b2 * Rabs b2 * Rabs b2)).
Hypotheses (CS : C * C + S * S = 1) (CZ : S * a0 + C * b1 = 0).
Local Notation p := (C * a1 + S * b1).
Hypotheses (DX : Rabs (x + S * p) <= 3e-13 * Rabs S) (DZ : Rabs (z + S * b2) <= 1e-14 * (Rabs S * Rabs b2)).
Hypotheses (CS2 : C2 * C2 + S2 * S2 = 1) (CZ2 : S2 * x + C2 * z = 0) (DN : n2 * n2 <= 1.00001 * (x * x + z * z)) (Up : Rabs p <= 10).
Hypotheses (DK : Rabs (k3 - (C2 * S2 * (C * p - a2) + C * b2 * (C2 * C2 - S2 * S2))) <= 5e-13 * Rabs S2).

Lemma abs_unit a b : a * a + b * b = 1 -> Rabs a <= 1 /\ Rabs b <= 1.
Proof. intros H. split; apply sq_le_abs; nra. Qed.

Lemma step_shrinks : n2 * n2 * (k3 * k3 * (k3 * k3)) <= 0.31 * (b1 * b1 * (b2 * b2 * (b2 * b2))).
Proof.
  destruct (abs_unit C S CS) as (LC & LS). destruct (abs_unit C2 S2 CS2) as (LC2 & LS2).
  set (m := C * a0 - S * b1).
  assert (Ea0 : a0 = C * m). { unfold m. replace (C * (C * a0 - S * b1)) with ((C * C + S * S) * a0 - S * (S * a0 + C * b1)) by ring. rewrite CS, CZ. ring. }
  assert (Eb1 : b1 = - S * m). { unfold m. replace (- S * (C * a0 - S * b1)) with ((C * C + S * S) * b1 - C * (S * a0 + C * b1)) by ring. rewrite CS, CZ. ring. }
  clearbody m.
  assert (NS : S <> 0) by (intros Z; rewrite Z in Eb1; rewrite Eb1 in Lb1; replace (- 0 * m) with 0 in Lb1 by ring; rewrite Rabs_R0 in Lb1; lra).
  assert (AS : 0 < Rabs S) by now apply Rabs_pos_lt.
  assert (Am : Rabs b1 = Rabs S * Rabs m) by (rewrite Eb1, Rabs_mult, Rabs_Ropp; reflexivity).
  assert (Pm : 0 < Rabs m) by (pose proof (Rabs_pos m); nra).
  set (pt := - x / S). set (bt := - z / S).
  assert (Ex : x = - S * pt) by (unfold pt; field; exact NS). assert (Ez : z = - S * bt) by (unfold bt; field; exact NS). clearbody pt bt.
  assert (Dp : Rabs (p - pt) <= 3e-13).
  { apply (Rmult_le_reg_l (Rabs S)); [exact AS|]. rewrite <- Rabs_mult. replace (S * (p - pt)) with (x + S * p) by (rewrite Ex; ring). lra. }
  assert (Db : Rabs (b2 - bt) <= 1e-14 * Rabs b2).
  { apply (Rmult_le_reg_l (Rabs S)); [exact AS|]. rewrite <- Rabs_mult. replace (S * (b2 - bt)) with (z + S * b2) by (rewrite Ez; ring). lra. }
  set (M2 := C2 * pt - S2 * bt).
  assert (Z2 : S2 * pt + C2 * bt = 0). { apply (Rmult_eq_reg_l (- S)); [|lra]. rewrite Rmult_0_r, <- CZ2, Ex, Ez. ring. }
  assert (Ept : pt = C2 * M2). { unfold M2. replace (C2 * (C2 * pt - S2 * bt)) with ((C2 * C2 + S2 * S2) * pt - S2 * (S2 * pt + C2 * bt)) by ring. rewrite CS2, Z2. ring. }
  assert (Ebt : bt = - S2 * M2). { unfold M2. replace (- S2 * (C2 * pt - S2 * bt)) with ((C2 * C2 + S2 * S2) * bt - C2 * (S2 * pt + C2 * bt)) by ring. rewrite CS2, Z2. ring. }
  clearbody M2.
  assert (Ab : 0.99999 * Rabs b2 <= Rabs bt <= 1.00001 * Rabs b2).
  { split.
    - pose proof (Rabs_triang (b2 - bt) bt) as TR. replace (b2 - bt + bt) with b2 in TR by ring. lra.
    - pose proof (Rabs_triang (bt - b2) b2) as TR. replace (bt - b2 + b2) with bt in TR by ring. rewrite Rabs_minus_sym in TR. lra. }
  assert (AM : Rabs bt = Rabs S2 * Rabs M2) by (rewrite Ebt, Rabs_mult, Rabs_Ropp; reflexivity).
  pose proof (Rabs_pos S2) as PS2. pose proof (Rabs_pos M2) as PM2'.
  assert (PM2 : 0 < Rabs M2) by nra.
  assert (LM2 : Rabs bt <= Rabs M2) by (rewrite AM; nra).
  assert (UM2 : Rabs M2 <= 14).
  { apply sq_le_abs; [lra|]. replace (M2 * M2) with (pt * pt + bt * bt) by (rewrite Ept, Ebt; replace (C2 * M2 * (C2 * M2) + - S2 * M2 * (- S2 * M2)) with ((C2 * C2 + S2 * S2) * (M2 * M2)) by ring; rewrite CS2; ring).
    rewrite <- (abs_sq pt), <- (abs_sq bt). assert (Rabs pt <= 11). { pose proof (Rabs_triang (pt - p) p) as TR. replace (pt - p + p) with pt in TR by ring. rewrite Rabs_minus_sym in TR. lra. }
    pose proof (Rabs_pos pt). pose proof (Rabs_pos bt). nra. }
  (* the new entry at the bottom *)
  assert (K1 : Rabs (k3 - S2 * (- C2 * a2 + C * M2 * (S2 * S2))) <= 1e-12 * Rabs S2).
  { replace (k3 - S2 * (- C2 * a2 + C * M2 * (S2 * S2))) with
      ((k3 - (C2 * S2 * (C * p - a2) + C * b2 * (C2 * C2 - S2 * S2))) + (C2 * C * (p - pt)) * S2 + C * (C2 * C2 - S2 * S2) * (b2 - bt)).
    2:{ rewrite Ept at 1. rewrite Ebt at 1. ring_simplify. replace (C2 ^ 2) with (1 - S2 ^ 2) by nra. ring. }
    eapply Rle_trans; [apply Rabs_triang|]. eapply Rle_trans; [apply Rplus_le_compat_r, Rabs_triang|].
    assert (T1 : Rabs (C2 * C * (p - pt) * S2) <= 3e-13 * Rabs S2).
    { rewrite Rabs_mult. apply Rmult_le_compat_r; [exact PS2|]. rewrite !Rabs_mult. pose proof (Rabs_pos C2). pose proof (Rabs_pos C). pose proof (Rabs_pos (p - pt)).
      assert (Rabs C2 * Rabs C <= 1) by nra. assert (0 <= Rabs C2 * Rabs C) by nra. nra. }
    assert (T2 : Rabs (C * (C2 * C2 - S2 * S2) * (b2 - bt)) <= 2e-13 * Rabs S2).
    { rewrite !Rabs_mult. assert (Rabs (C2 * C2 - S2 * S2) <= 1) by (apply Rabs_le; nra). pose proof (Rabs_pos C). pose proof (Rabs_pos (C2 * C2 - S2 * S2)).
      assert (Q1 : Rabs C * Rabs (C2 * C2 - S2 * S2) <= 1) by nra. assert (0 <= Rabs C * Rabs (C2 * C2 - S2 * S2)) by nra. pose proof (Rabs_pos (b2 - bt)).
      assert (Rabs (b2 - bt) <= 1.1e-14 * (Rabs S2 * Rabs M2)) by lra. assert (Rabs S2 * Rabs M2 <= Rabs S2 * 14) by (apply Rmult_le_compat_l; lra). nra. }
    lra. }
  (* nu^2 = |m M2| *)
  set (nu := sqrt (Rabs m * Rabs M2)). assert (NN : nu * nu = Rabs m * Rabs M2) by (apply sqrt_sqrt; pz). assert (N0 : 0 <= nu) by apply sqrt_pos. clearbody nu.
  assert (PB : 0 < Rabs b1 * Rabs b2) by pp.
  assert (NB : 0.9999 * (Rabs b1 * Rabs b2) <= nu * nu).
  { rewrite NN. assert (Rabs b1 <= Rabs m) by (rewrite Am; rewrite <- (Rmult_1_l (Rabs m)) at 2; apply Rmult_le_compat_r; lra). apply Rle_trans with (Rabs b1 * Rabs bt); [|apply Rmult_le_compat; lra].
    replace (0.9999 * (Rabs b1 * Rabs b2)) with (Rabs b1 * (0.9999 * Rabs b2)) by ring. apply Rmult_le_compat_l; lra. }
  assert (NL : 3.9e-8 <= nu). { apply Rsqr_incr_0_var; [|exact N0]. unfold Rsqr. assert (4e-8 * 4e-8 <= Rabs b1 * Rabs b2) by (apply Rmult_le_compat; lra). lra. }
  assert (NP : 0 < nu) by lra.
  (* the main term *)
  set (y := b1 * b1 * al2).
  assert (AA : a1 * a1 <= 1.00001 * (al1 * al1)).
  { assert (Rabs b2 <= Rabs al1). { assert (E : Rabs al1 * Rabs al2 = Rabs b2 * Rabs b2) by (rewrite <- !Rabs_mult, AL; reflexivity). pose proof (Rabs_pos al1). pose proof (Rabs_pos al2).
      apply (prod_low _ (Rabs al2)); lra. }
    rewrite <- (abs_sq a1), <- (abs_sq al1). pose proof (Rabs_pos a1).
    assert (Rabs a1 <= 1.000001 * Rabs al1). { pose proof (Rabs_triang (a1 - al1) al1) as TR. replace (a1 - al1 + al1) with a1 in TR by ring. lra. }
    assert (Rabs a1 * Rabs a1 <= 1.000001 * Rabs al1 * (1.000001 * Rabs al1)) by (apply Rmult_le_compat; lra). pose proof (Rle_0_sqr (Rabs al1)) as SQ. unfold Rsqr in SQ. lra. }
  assert (A2' : al2 * al2 <= b2 * b2) by (rewrite <- (abs_sq al2), <- (abs_sq b2); pose proof (Rabs_pos al2); apply Rmult_le_compat; lra).
  assert (nb1 : b1 <> 0) by (intros Z; rewrite Z, Rabs_R0 in Lb1; lra). assert (nb2 : b2 <> 0) by (intros Z; rewrite Z, Rabs_R0 in Lb2; lra).
  pose proof (core_ineq a0 a1 b1 b2 al1 al2 AL A2' nb2 nb1 AA) as CI.
  set (q := a0 * a1 - b1 * b1) in *. set (N0' := q * q + (a0 * a0 + b1 * b1) * (b2 * b2)) in *.
  assert (EN : m * pt * (m * pt) + m * bt * (m * bt) = nu ^ 4).
  { replace (nu ^ 4) with ((nu * nu) * (nu * nu)) by ring. rewrite NN. replace (Rabs m * Rabs M2 * (Rabs m * Rabs M2)) with (Rabs m * Rabs m * (Rabs M2 * Rabs M2)) by ring. rewrite !abs_sq.
    rewrite Ept, Ebt. replace (m * (C2 * M2) * (m * (C2 * M2)) + m * (- S2 * M2) * (m * (- S2 * M2))) with (m * m * (M2 * M2) * (C2 * C2 + S2 * S2)) by ring. rewrite CS2. ring. }
  assert (EQ : m * p = q) by (unfold q; rewrite Ea0 at 1; replace (b1 * b1) with (b1 * (- S * m)) by (rewrite <- Eb1; ring); ring).
  assert (Er : a0 * a0 + b1 * b1 = m * m) by (rewrite Ea0, Eb1; replace (C * m * (C * m) + - S * m * (- S * m)) with ((C * C + S * S) * (m * m)) by ring; rewrite CS; ring).
  assert (NC : 0.9999 * N0' <= nu ^ 4).
  { rewrite <- EN. unfold N0'. rewrite Er, <- EQ. set (e := p - pt) in *. replace p with (pt + e) by (unfold e; ring). clearbody e.
    assert (Be : Rabs e <= 1e-5 * Rabs bt) by lra. assert (Bq : b2 * b2 <= 1.00003 * (bt * bt)) by (pose proof (sq_scale b2 bt 1.000011 ltac:(lra) ltac:(lra)); pose proof (Rle_0_sqr bt) as SB; unfold Rsqr in SB; lra).
    assert (Be2 : 2 * Rabs (pt * e) <= 1e-5 * (pt * pt + bt * bt)).
    { rewrite Rabs_mult, <- (abs_sq pt), <- (abs_sq bt). pose proof (Rabs_pos pt). pose proof (Rle_0_sqr (Rabs pt - Rabs bt)) as SQ. unfold Rsqr in SQ. assert (Rabs pt * Rabs e <= Rabs pt * (1e-5 * Rabs bt)) by (apply Rmult_le_compat_l; lra). lra. }
    assert (Be3 : e * e <= 1e-9 * (bt * bt)) by (pose proof (sq_scale e bt 1e-5 ltac:(lra) Be); pose proof (Rle_0_sqr bt) as SB; unfold Rsqr in SB; lra).
    pose proof (Rle_abs (pt * e)) as RA. assert (PQ : 0 <= pt * pt) by pz. assert (PR : 0 <= bt * bt) by pz. assert (MM : 0 <= m * m) by pz.
    replace (0.9999 * (m * (pt + e) * (m * (pt + e)) + m * m * (b2 * b2))) with (m * m * (0.9999 * ((pt + e) * (pt + e) + b2 * b2))) by ring.
    replace (m * pt * (m * pt) + m * bt * (m * bt)) with (m * m * (pt * pt + bt * bt)) by ring. apply Rmult_le_compat_l; [exact MM|].
    replace ((pt + e) * (pt + e)) with (pt * pt + 2 * (pt * e) + e * e) by ring. lra. }
  assert (N0p : 0 <= N0') by (unfold N0'; pz).
  assert (YM : Rabs y <= 0.739 * (nu * nu * nu)).
  { apply pow4_le; [pz|]. replace (Rabs y ^ 4) with (b1 ^ 8 * al2 ^ 4).
    2:{ unfold y. replace (Rabs (b1 * b1 * al2) ^ 4) with ((Rabs (b1 * b1 * al2) * Rabs (b1 * b1 * al2)) * (Rabs (b1 * b1 * al2) * Rabs (b1 * b1 * al2))) by ring. rewrite abs_sq. ring. }
    replace ((0.739 * (nu * nu * nu)) ^ 4) with (0.739 ^ 4 * (nu ^ 4) ^ 3) by ring.
    assert ((0.9999 * N0') ^ 3 <= (nu ^ 4) ^ 3) by (apply pow_incr; lra). replace ((0.9999 * N0') ^ 3) with (0.9999 ^ 3 * N0' ^ 3) in H by ring.
    assert (0 <= N0' ^ 3) by now apply pow_le. assert (0.9999 ^ 3 * (3.374 * (b1 ^ 8 * al2 ^ 4)) <= 0.9999 ^ 3 * N0' ^ 3) by (apply Rmult_le_compat_l; lra).
    assert (0 <= b1 ^ 8 * al2 ^ 4). { replace (b1 ^ 8 * al2 ^ 4) with ((b1 ^ 4 * al2 ^ 2) * (b1 ^ 4 * al2 ^ 2)) by ring. apply Rle_0_sqr. } lra. }
  (* terms of the shift *)
  set (t := a1 - al1) in *. set (t2 := a2 - al2) in *.
  assert (RT : 1e-14 * Rabs b1 <= 0.00101 * (Rabs b2 * nu)).
  { apply Rsqr_incr_0_var; [|pz]. unfold Rsqr. replace (0.00101 * (Rabs b2 * nu) * (0.00101 * (Rabs b2 * nu))) with (0.00101 * 0.00101 * (Rabs b2 * Rabs b2) * (nu * nu)) by ring.
    apply Rle_trans with (0.00101 * 0.00101 * (Rabs b2 * Rabs b2) * (0.9999 * (Rabs b1 * Rabs b2))); [|apply Rmult_le_compat_l; [pz|exact NB]].
    replace (1e-14 * Rabs b1 * (1e-14 * Rabs b1)) with (1e-14 * 1e-14 * Rabs b1 * Rabs b1) by ring.
    replace (0.00101 * 0.00101 * (Rabs b2 * Rabs b2) * (0.9999 * (Rabs b1 * Rabs b2))) with ((0.00101 * 0.00101 * 0.9999 * (Rabs b2 * Rabs b2 * Rabs b2)) * Rabs b1) by ring.
    apply Rmult_le_compat_r; [lra|]. assert (0 < Rabs b2 * Rabs b2 * Rabs b2) by pp. lra. }
  assert (RB : 1e-14 * (Rabs b1 * Rabs b1) <= 0.00102 * (nu * nu * nu)).
  { apply (Rmult_le_reg_r (Rabs b2)); [lra|].
    replace (1e-14 * (Rabs b1 * Rabs b1) * Rabs b2) with (1e-14 * Rabs b1 * (Rabs b1 * Rabs b2)) by ring.
    replace (0.00102 * (nu * nu * nu) * Rabs b2) with (1.02 / 1.01 * (0.00101 * (Rabs b2 * nu)) * (nu * nu)) by lra.
    apply Rle_trans with (0.00101 * (Rabs b2 * nu) * (Rabs b1 * Rabs b2)); [apply Rmult_le_compat_r; lra|].
    replace (1.02 / 1.01 * (0.00101 * (Rabs b2 * nu)) * (nu * nu)) with (0.00101 * (Rabs b2 * nu) * (1.02 / 1.01 * (nu * nu))) by ring. apply Rmult_le_compat_l; [pz|lra]. }
  assert (LA1 : Rabs b2 <= Rabs al1). { assert (E : Rabs al1 * Rabs al2 = Rabs b2 * Rabs b2) by (rewrite <- !Rabs_mult, AL; reflexivity). pose proof (Rabs_pos al1). pose proof (Rabs_pos al2).
      apply (prod_low _ (Rabs al2)); lra. }
  assert (LA1' : Rabs al1 <= 1.00001 * Rabs a1). { pose proof (Rabs_triang (al1 - a1) a1) as TR. replace (al1 - a1 + a1) with al1 in TR by ring. rewrite Rabs_minus_sym in TR. fold t in TR. lra. }
  set (th := a1 * a2 - b2 * b2).
  assert (TH : Rabs th <= 2.1e-14 * Rabs a1).
  { unfold th. replace (a1 * a2 - b2 * b2) with (t2 * a1 + t * al2) by (rewrite <- AL; unfold t, t2; ring).
    eapply Rle_trans; [apply Rabs_triang|]. rewrite !Rabs_mult. pose proof (Rabs_pos a1). pose proof (Rabs_pos al2).
    assert (Rabs t2 * Rabs a1 <= 1e-14 * Rabs a1) by (apply Rmult_le_compat_r; lra). assert (Rabs t * Rabs al2 <= 1e-14 * Rabs al2) by (apply Rmult_le_compat_r; lra). lra. }
  assert (QN : Rabs q <= 1.001 * (nu * nu)).
  { apply sq_le_abs; [pz|]. apply Rle_trans with N0'; [unfold N0'; assert (0 <= (a0 * a0 + b1 * b1) * (b2 * b2)) by pz; lra|].
    replace (1.001 * (nu * nu) * (1.001 * (nu * nu))) with (1.001 * 1.001 * nu ^ 4) by ring. lra. }
  assert (TA : Rabs (a0 * th) <= 0.0045 * (nu * nu * nu)).
  { rewrite Rabs_mult. apply Rle_trans with (Rabs a0 * (2.1e-14 * Rabs a1)); [apply Rmult_le_compat_l; [apply Rabs_pos|exact TH]|].
    replace (Rabs a0 * (2.1e-14 * Rabs a1)) with (2.1e-14 * Rabs (a0 * a1)) by (rewrite Rabs_mult; ring).
    pose proof (Rabs_triang q (b1 * b1)) as TR. replace (q + b1 * b1) with (a0 * a1) in TR by (unfold q; ring). rewrite (Rabs_mult b1 b1) in TR.
    pose proof (cube_low 1e-6 2.2e-14 nu ltac:(lra) ltac:(lra)). lra. }
  (* together *)
  assert (D : Rabs (a0 * (bt * bt) - m * pt * a2) <= 0.7452 * (nu * nu * nu)).
  { replace (a0 * (bt * bt) - m * pt * a2) with (y + t2 * (b1 * b1) - a0 * th + a0 * (bt * bt - b2 * b2) + m * (p - pt) * a2).
    2:{ unfold y, th. replace (m * (p - pt) * a2) with (m * p * a2 - m * pt * a2) by ring. rewrite EQ. unfold q, t2. ring. }
    assert (B4 : Rabs (a0 * (bt * bt - b2 * b2)) <= 1.1e-6 * (nu * nu * nu)).
    { rewrite Ea0 at 1. replace (C * m * (bt * bt - b2 * b2)) with (C * (m * (- (b2 - bt)) * (bt + b2))) by ring. rewrite !Rabs_mult, Rabs_Ropp.
      pose proof (Rabs_triang bt b2). assert (Rabs (bt + b2) <= 4.1) by lra. pose proof (Rabs_pos (bt + b2)). pose proof (Rabs_pos (b2 - bt)). pose proof (Rabs_pos C).
      assert (Rabs m * Rabs (b2 - bt) * Rabs (bt + b2) <= 4.2e-14 * (nu * nu)).
      { rewrite NN. assert (Rabs (b2 - bt) <= 1.01e-14 * Rabs M2) by lra. apply Rle_trans with (Rabs m * (1.01e-14 * Rabs M2) * 4.1); [apply Rmult_le_compat; [apply Rmult_le_pos; lra|lra| |lra]; apply Rmult_le_compat_l; lra|]. assert (0 <= Rabs m * Rabs M2) by (apply Rmult_le_pos; lra). lra. }
      pose proof (cube_low 1.1e-6 4.2e-14 nu ltac:(lra) ltac:(lra)).
      assert (0 <= Rabs m * Rabs (b2 - bt) * Rabs (bt + b2)) by (apply Rmult_le_pos; [apply Rmult_le_pos; lra|lra]).
      assert (Rabs C * (Rabs m * Rabs (b2 - bt) * Rabs (bt + b2)) <= 1 * (Rabs m * Rabs (b2 - bt) * Rabs (bt + b2))) by (apply Rmult_le_compat_r; lra). lra. }
    assert (B5 : Rabs (m * (p - pt) * a2) <= 1.1e-5 * (nu * nu * nu)).
    { rewrite !Rabs_mult. assert (Rabs a2 <= 1.01 * Rabs M2). { pose proof (Rabs_triang al2 t2) as TR. replace (al2 + t2) with a2 in TR by (unfold t2; ring). lra. }
      pose proof (Rabs_pos (p - pt)). pose proof (Rabs_pos a2). apply Rle_trans with (Rabs m * 3e-13 * (1.01 * Rabs M2)); [apply Rmult_le_compat; [apply Rmult_le_pos; lra|lra|apply Rmult_le_compat_l; lra|lra]|].
      replace (Rabs m * 3e-13 * (1.01 * Rabs M2)) with (3.03e-13 * (nu * nu)) by (rewrite NN; lra). apply cube_low; lra. }
    assert (B6 : Rabs (t2 * (b1 * b1)) <= 0.00102 * (nu * nu * nu)).
    { rewrite !Rabs_mult. assert (0 <= Rabs b1 * Rabs b1) by pz. apply Rle_trans with (1e-14 * (Rabs b1 * Rabs b1)); [apply Rmult_le_compat_r; lra|exact RB]. }
    eapply Rle_trans; [apply Rabs_triang|]. eapply Rle_trans; [apply Rplus_le_compat_r, Rabs_triang|].
    pose proof (Rabs_triang (y + t2 * (b1 * b1)) (- (a0 * th))) as T1. rewrite Rabs_Ropp in T1. pose proof (Rabs_triang y (t2 * (b1 * b1))) as T2.
    unfold Rminus at 1. assert (0 < nu * nu * nu) by pp. lra. }
  assert (K2 : Rabs k3 * (nu * nu) <= Rabs S2 * (0.7453 * (nu * nu * nu))).
  { set (G := - C2 * a2 + C * M2 * (S2 * S2)) in *. pose proof (Rabs_triang (k3 - S2 * G) (S2 * G)) as TR. replace (k3 - S2 * G + S2 * G) with k3 in TR by ring.
    assert (GE : Rabs G * (nu * nu) = Rabs (a0 * (bt * bt) - m * pt * a2)).
    { rewrite NN, <- !Rabs_mult. f_equal. unfold G. rewrite Ea0 at 1. rewrite Ept, Ebt. ring. }
    rewrite (Rabs_mult S2 G) in TR. apply Rle_trans with ((1e-12 * Rabs S2 + Rabs S2 * Rabs G) * (nu * nu)); [apply Rmult_le_compat_r; [pz|lra]|].
    replace ((1e-12 * Rabs S2 + Rabs S2 * Rabs G) * (nu * nu)) with (Rabs S2 * (1e-12 * (nu * nu) + Rabs G * (nu * nu))) by ring. apply Rmult_le_compat_l; [exact PS2|]. rewrite GE.
    pose proof (cube_low 3e-5 1e-12 nu ltac:(lra) ltac:(lra)). lra. }
  assert (K4 : Rabs k3 <= 0.7453 * (Rabs S2 * nu)).
  { apply (Rmult_le_reg_r (nu * nu)); [pp|]. eapply Rle_trans; [exact K2|]. right. ring. }
  (* n2^2 k3^4 <= 1.00001 S^2 M2^2 (0.7453 S2 nu)^4, and (S2 M2)^2 (S m)^2 = (bt b1)^2 *)
  assert (XZ : x * x + z * z = S * S * (M2 * M2)).
  { rewrite Ex, Ez, Ept, Ebt. replace (- S * (C2 * M2) * (- S * (C2 * M2)) + - S * (- S2 * M2) * (- S * (- S2 * M2))) with (S * S * (M2 * M2) * (C2 * C2 + S2 * S2)) by ring. rewrite CS2. ring. }
  rewrite XZ in DN.
  assert (K5 : k3 * k3 <= 0.7453 * 0.7453 * (S2 * S2 * (nu * nu))).
  { rewrite <- (abs_sq k3), <- (abs_sq S2). pose proof (Rabs_pos k3). apply Rle_trans with (0.7453 * (Rabs S2 * nu) * (0.7453 * (Rabs S2 * nu))); [apply Rmult_le_compat; lra|right; ring]. }
  assert (K6 : k3 * k3 * (k3 * k3) <= 0.7453 ^ 4 * (S2 * S2 * (S2 * S2) * (m * m * (M2 * M2)))).
  { apply Rle_trans with (0.7453 * 0.7453 * (S2 * S2 * (nu * nu)) * (0.7453 * 0.7453 * (S2 * S2 * (nu * nu)))); [apply Rmult_le_compat; try exact K5; pz|]. rewrite NN. rewrite <- (abs_sq m), <- (abs_sq M2). right. ring. }
  assert (P6 : 0 <= k3 * k3 * (k3 * k3)) by apply Rle_0_sqr.
  assert (PSM : 0 <= S * S * (M2 * M2)) by pz.
  apply Rle_trans with (1.00001 * (S * S * (M2 * M2)) * (0.7453 ^ 4 * (S2 * S2 * (S2 * S2) * (m * m * (M2 * M2))))).
  { apply Rmult_le_compat; [pz|exact P6|exact DN|exact K6]. }
  replace (1.00001 * (S * S * (M2 * M2)) * (0.7453 ^ 4 * (S2 * S2 * (S2 * S2) * (m * m * (M2 * M2))))) with
    (1.00001 * 0.7453 ^ 4 * ((b1 * b1) * (bt * bt * (bt * bt)))) by (rewrite Eb1, Ebt; ring).
  assert (QB : bt * bt <= 1.00003 * (b2 * b2)) by (pose proof (sq_scale bt b2 1.00001 ltac:(lra) ltac:(lra)); pose proof (Rle_0_sqr b2) as SB; unfold Rsqr in SB; lra).
  assert (QB2 : bt * bt * (bt * bt) <= 1.00003 * (b2 * b2) * (1.00003 * (b2 * b2))) by (apply Rmult_le_compat; solve [apply Rle_0_sqr|exact QB]).
  assert (P1 : 0 < b1 * b1) by now apply Rlt_0_sqr.
  assert (Q3 : b1 * b1 * (bt * bt * (bt * bt)) <= b1 * b1 * (1.00003 * (b2 * b2) * (1.00003 * (b2 * b2)))) by (apply Rmult_le_compat_l; lra).
  assert (P4 : 0 <= b1 * b1 * (b2 * b2 * (b2 * b2))) by pz.
  replace (b1 * b1 * (1.00003 * (b2 * b2) * (1.00003 * (b2 * b2)))) with (1.00003 * 1.00003 * (b1 * b1 * (b2 * b2 * (b2 * b2)))) in Q3 by ring. lra.
Qed.
End Step.
