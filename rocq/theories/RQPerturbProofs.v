(** * RQPerturbProofs.v - how the QR factors change with the matrix, over the reals (C108) *)

From Coq Require Import ZArith Reals List Bool Lra Lia Psatz.
From Flocq Require Import Core.
From Verif Require Import Scalar Linalg Spec RealBase VecLemmas FromViewProofs FloatViewProofs FloatIsectProofs4 FloatQRProofs FloatQRProofs2.
Local Open Scope R_scope.

Lemma sum3_sq x y z : 0 <= x -> 0 <= y -> 0 <= z -> x + y + z <= 1.7321 * sqrt (x * x + y * y + z * z).
Proof.
  intros X Y Z. apply le_from_sq; [apply Rmult_le_pos; [lra|apply sqrt_pos]|].
  replace (1.7321 * sqrt (x * x + y * y + z * z) * (1.7321 * sqrt (x * x + y * y + z * z))) with (1.7321 * 1.7321 * (sqrt (x * x + y * y + z * z) * sqrt (x * x + y * y + z * z))) by ring.
  rewrite sqrt_sqrt by nra. pose proof (Rle_0_sqr (x - y)). pose proof (Rle_0_sqr (x - z)). pose proof (Rle_0_sqr (y - z)). unfold Rsqr in *. nra.
Qed.
Definition comb (p q r : R) (A B C : V3 R) : V3 R := vadd (vadd (vscl p A) (vscl q B)) (vscl r C).
Lemma vlen_add3 a b c : vlen (vadd (vadd a b) c) <= vlen a + vlen b + vlen c.
Proof. eapply Rle_trans; [apply vlen_triangle|]. pose proof (vlen_triangle a b). lra. Qed.
Lemma comb_dist p q r A B C A' B' C' e : vdist A' A <= e * vlen A -> vdist B' B <= e * vlen B -> vdist C' C <= e * vlen C -> 0 <= e ->
  vdist (comb p q r A' B' C') (comb p q r A B C) <= 1.7321 * e * sqrt (p * p * vdot A A + q * q * vdot B B + r * r * vdot C C).
Proof.
  intros HA HB HC E. unfold vdist in *.
  replace (vsub (comb p q r A' B' C') (comb p q r A B C)) with (vadd (vadd (vscl p (vsub A' A)) (vscl q (vsub B' B))) (vscl r (vsub C' C))) by (unfold comb; vring).
  eapply Rle_trans; [apply vlen_add3|]. rewrite !vlen_vscl.
  pose proof (Rabs_pos p) as P0. pose proof (Rabs_pos q) as Q0. pose proof (Rabs_pos r) as R0.
  pose proof (vlen_nonneg A) as A0. pose proof (vlen_nonneg B) as B0. pose proof (vlen_nonneg C) as C0.
  pose proof (sum3_sq (Rabs p * vlen A) (Rabs q * vlen B) (Rabs r * vlen C) (Rmult_le_pos _ _ P0 A0) (Rmult_le_pos _ _ Q0 B0) (Rmult_le_pos _ _ R0 C0)) as S.
  assert (SQ : forall k v, Rabs k * vlen v * (Rabs k * vlen v) = k * k * vdot v v).
  { intros k v. replace (Rabs k * vlen v * (Rabs k * vlen v)) with (Rabs k * Rabs k * (vlen v * vlen v)) by ring. rewrite vlen_sq, <- Rabs_mult, Rabs_pos_eq by apply Rle_0_sqr. reflexivity. }
  rewrite !SQ in S. set (t := sqrt _) in *.
  apply Rle_trans with (e * (Rabs p * vlen A + Rabs q * vlen B + Rabs r * vlen C)).
  - pose proof (Rmult_le_compat_l _ _ _ P0 HA). pose proof (Rmult_le_compat_l _ _ _ Q0 HB). pose proof (Rmult_le_compat_l _ _ _ R0 HC). lra.
  - pose proof (Rmult_le_compat_l _ _ _ E S). lra.
Qed.
Lemma indep_sqrt lam A B C p q r : 0 < lam -> indep lam A B C -> lam * sqrt (p * p * vdot A A + q * q * vdot B B + r * r * vdot C C) <= vlen (comb p q r A B C).
Proof.
  intros L H. pose proof (H p q r) as I. cbv zeta in I. fold (comb p q r A B C) in I. unfold vlen.
  rewrite <- (sqrt_Rsqr lam) at 1 by lra. rewrite <- sqrt_mult_alt by apply Rle_0_sqr. apply sqrt_le_1_alt. exact I.
Qed.
(** nearby vectors are about as independent *)
Lemma indep_near lam e A B C A' B' C' : 0 < lam -> 0 <= e -> 300 * e <= lam -> lam <= 1 -> indep lam A B C ->
  vdist A' A <= e * vlen A -> vdist B' B <= e * vlen B -> vdist C' C <= e * vlen C -> indep (0.985 * lam) A' B' C'.
Proof.
  intros L E E3 L1 H HA HB HC p q r. cbv zeta. fold (comb p q r A' B' C').
  pose proof (comb_dist p q r A B C A' B' C' e HA HB HC E) as D. pose proof (indep_sqrt lam A B C p q r L H) as I.
  set (t := sqrt _) in *. pose proof (vdist_len (comb p q r A' B' C') (comb p q r A B C)) as (K & _).
  assert (T0 : 0 <= t) by apply sqrt_pos.
  assert (K1 : 0.994 * lam * t <= vlen (comb p q r A' B' C')).
  { assert (1.7321 * e * t <= 0.006 * lam * t) by (apply Rmult_le_compat_r; lra). lra. }
  assert (SQ : forall v v', vdist v' v <= e * vlen v -> vdot v' v' <= 1.0067 * vdot v v).
  { intros v v' Hv. pose proof (vdist_len v' v) as (_ & U). rewrite <- !vlen_sq. pose proof (vlen_nonneg v) as V0. pose proof (vlen_nonneg v') as V0'.
    assert (W : vlen v' <= 1.00334 * vlen v) by nra. pose proof (Rmult_le_compat _ _ _ _ V0' V0' W W). nra. }
  assert (TT : t * t = p * p * vdot A A + q * q * vdot B B + r * r * vdot C C).
  { apply sqrt_sqrt. pose proof (vdot_self_nonneg A). pose proof (vdot_self_nonneg B). pose proof (vdot_self_nonneg C). nra. }
  rewrite <- (vlen_sq (comb p q r A' B' C')). assert (X0 : 0 <= 0.994 * lam * t) by (apply Rmult_le_pos; lra). pose proof (Rmult_le_compat _ _ _ _ X0 X0 K1 K1) as Q.
  eapply Rle_trans; [|exact Q].
  assert (S : p * p * vdot A' A' + q * q * vdot B' B' + r * r * vdot C' C' <= 1.0067 * (t * t)).
  { rewrite TT. pose proof (Rmult_le_compat_l _ _ _ (Rle_0_sqr p) (SQ _ _ HA)). pose proof (Rmult_le_compat_l _ _ _ (Rle_0_sqr q) (SQ _ _ HB)). pose proof (Rmult_le_compat_l _ _ _ (Rle_0_sqr r) (SQ _ _ HC)). unfold Rsqr in *. lra. }
  assert (LL : 0 <= lam * lam) by nra. pose proof (Rmult_le_compat_l _ _ _ LL S). 
  assert (0 <= lam * lam * (t * t)) by (apply Rmult_le_pos; [lra|apply Rle_0_sqr]). nra.
Qed.
Lemma entry_bounds V : orthogonal V -> forall g, 0 <= g <= 0.1 ->
  m10 V * m10 V + m20 V * m20 V <= g * g -> m21 V * m21 V <= g * g -> - g <= m00 V -> - g <= m11 V -> - g <= m22 V ->
  (1 - m00 V) + (1 - m11 V) + (1 - m22 V) <= 5 * (g * g).
Proof.
  intros (T1 & T2) g G C0 C1 D0 D1 D2. destruct V as [a b c d e f g' h i]. cbn [m00 m10 m20 m11 m21 m22 m01 m02 m12] in *.
  pose proof (f_equal m00 T1) as A1. pose proof (f_equal m11 T1) as A2. pose proof (f_equal m22 T2) as A4. pose proof (f_equal m00 T2) as A5.
  revert A1 A2 A4 A5. ru_spec. intros A1 A2 A4 A5.
  assert (gg : g * g <= 0.01) by nra.
  assert (X0 : 1 - a <= g * g) by (assert (0 < a) by nra; assert (a <= 1) by nra; nra).
  assert (X1 : 1 - e <= 2 * (g * g)) by (assert (b * b <= g * g) by nra; assert (0 < e) by nra; assert (e <= 1) by nra; nra).
  assert (X2 : 1 - i <= 2 * (g * g)) by (assert (g' * g' <= g * g) by nra; assert (0 < i) by nra; assert (i <= 1) by nra; nra).
  lra.
Qed.
Lemma near_identity V g : orthogonal V -> 0 <= g -> (1 - m00 V) + (1 - m11 V) + (1 - m22 V) <= 5 * (g * g) -> forall v, vdist (mv V v) v <= 3.1623 * g * vlen v.
Proof.
  intros (T1 & T2) G S v. apply le_from_sq; [apply Rmult_le_pos; [lra|apply vlen_nonneg]|].
  replace (3.1623 * g * vlen v * (3.1623 * g * vlen v)) with (3.1623 * 3.1623 * (g * g) * (vlen v * vlen v)) by ring. unfold vdist. rewrite !vlen_sq.
  destruct V as [a b c d e f g' h i], v as [x y z]. cbn [m00 m10 m20 m11 m21 m22 m01 m02 m12] in *.
  pose proof (f_equal m00 T2) as A1. pose proof (f_equal m11 T2) as A2. pose proof (f_equal m22 T2) as A3. revert A1 A2 A3. ru_spec. intros A1 A2 A3.
  set (N := x * x + y * y + z * z). assert (N0 : 0 <= N) by (unfold N; nra).
  assert (CS : forall p q r, (p * x + q * y + r * z) * (p * x + q * y + r * z) <= (p * p + q * q + r * r) * N).
  { intros p q r. unfold N. pose proof (Rle_0_sqr (p * y - q * x)). pose proof (Rle_0_sqr (p * z - r * x)). pose proof (Rle_0_sqr (q * z - r * y)). unfold Rsqr in *. nra. }
  pose proof (CS (a - 1) b c) as K1. pose proof (CS d (e - 1) f) as K2. pose proof (CS g' h (i - 1)) as K3. clear CS.
  replace (a * x + b * y + c * z - x) with ((a - 1) * x + b * y + c * z) by ring. replace (d * x + e * y + f * z - y) with (d * x + (e - 1) * y + f * z) by ring.
  replace (g' * x + h * y + i * z - z) with (g' * x + h * y + (i - 1) * z) by ring.
  replace ((a - 1) * (a - 1) + b * b + c * c) with (2 * (1 - a)) in K1 by lra. replace (d * d + (e - 1) * (e - 1) + f * f) with (2 * (1 - e)) in K2 by lra.
  replace (g' * g' + h * h + (i - 1) * (i - 1)) with (2 * (1 - i)) in K3 by lra.
  assert (2 * (1 - a + (1 - e) + (1 - i)) * N <= 10 * (g * g) * N) by (apply Rmult_le_compat_r; lra).
  assert (0 <= g * g * N) by (apply Rmult_le_pos; [apply Rle_0_sqr|exact N0]). lra.
Qed.
Lemma rq_perturb V lam e a x1 y1 x2 y2 z2 a' x1' y1' x2' y2' z2' : orthogonal V -> 0 < lam -> 0 < e -> 17.33 * e <= lam ->
  0 < a -> 0 < y1 -> 0 < z2 -> 0 < a' -> 0 < y1' -> 0 < z2' ->
  let r0 := mkV3 a 0 0 in let r1 := mkV3 x1 y1 0 in let r2 := mkV3 x2 y2 z2 in indep lam r0 r1 r2 ->
  vdist (mkV3 a' 0 0) (mv V r0) <= e * vlen r0 -> vdist (mkV3 x1' y1' 0) (mv V r1) <= e * vlen r1 -> vdist (mkV3 x2' y2' z2') (mv V r2) <= e * vlen r2 ->
  forall v, vdist (mv V v) v <= 5.48 * (e / lam) * vlen v /\ vdist (mv (mtr V) v) v <= 5.48 * (e / lam) * vlen v.
Proof.
  intros O L E EL a0 y10 z20 a0' y10' z20' r0 r1 r2 IND H0 H1 H2. set (g := 1.7321 * (e / lam)).
  assert (EL' : 0 < e / lam) by (apply Rdiv_lt_0_compat; lra).
  assert (GL : e / lam <= / 17.33) by (apply Rmult_le_reg_r with lam; [exact L|]; replace (e / lam * lam) with e by (field; lra); lra).
  assert (G1 : 0 <= g <= 0.1) by (unfold g; lra).
  assert (CB : forall p q r, vlen (comb p q r r0 r1 r2) = 1 -> vdist (comb p q r (mkV3 a' 0 0) (mkV3 x1' y1' 0) (mkV3 x2' y2' z2')) (mv V (comb p q r r0 r1 r2)) <= g).
  { intros p q r N1. pose proof (indep_mv lam V r0 r1 r2 O IND) as I'. pose proof (indep_sqrt lam _ _ _ p q r L I') as I. unfold comb at 1 in I. rewrite <- comb_mv, orthogonal_len in I by exact O.
    fold (comb p q r r0 r1 r2) in I. rewrite N1 in I.
    assert (K := comb_dist p q r (mv V r0) (mv V r1) (mv V r2) (mkV3 a' 0 0) (mkV3 x1' y1' 0) (mkV3 x2' y2' z2') e). rewrite !orthogonal_len in K by exact O. specialize (K H0 H1 H2 ltac:(lra)).
    unfold comb at 2 in K. rewrite <- comb_mv in K. fold (comb p q r r0 r1 r2) in K. eapply Rle_trans; [exact K|]. set (t := sqrt _) in *. unfold g.
    assert (T : t <= / lam) by (apply Rmult_le_reg_l with lam; [exact L|]; rewrite Rinv_r by lra; exact I).
    replace (1.7321 * (e / lam)) with (1.7321 * e * / lam) by (unfold Rdiv; ring). apply Rmult_le_compat_l; lra. }
  assert (U0 : comb (/ a) 0 0 r0 r1 r2 = mkV3 1 0 0) by (unfold comb, r0, r1, r2; apply V3_eq; ru_spec; field; lra).
  assert (U1 : comb (- (x1 / (a * y1))) (/ y1) 0 r0 r1 r2 = mkV3 0 1 0) by (unfold comb, r0, r1, r2; apply V3_eq; ru_spec; field; lra).
  set (p2 := - (x2 / z2 - y2 / (y1 * z2) * x1) / a).
  assert (U2 : comb p2 (- (y2 / (y1 * z2))) (/ z2) r0 r1 r2 = mkV3 0 0 1) by (unfold p2, comb, r0, r1, r2; apply V3_eq; ru_spec; field; lra).
  assert (L0 : vlen (mkV3 1 0 0) = 1) by (unfold vlen; transitivity (sqrt 1); [f_equal; ru_spec; ring|apply sqrt_1]).
  assert (L1 : vlen (mkV3 0 1 0) = 1) by (unfold vlen; transitivity (sqrt 1); [f_equal; ru_spec; ring|apply sqrt_1]).
  assert (L2 : vlen (mkV3 0 0 1) = 1) by (unfold vlen; transitivity (sqrt 1); [f_equal; ru_spec; ring|apply sqrt_1]).
  pose proof (CB _ _ _ (eq_trans (f_equal vlen U0) L0)) as C0. pose proof (CB _ _ _ (eq_trans (f_equal vlen U1) L1)) as C1. pose proof (CB _ _ _ (eq_trans (f_equal vlen U2) L2)) as C2.
  rewrite U0 in C0. rewrite U1 in C1. rewrite U2 in C2. clear CB.
  rewrite <- mcol0_mv in C0. rewrite <- mcol1_mv in C1. rewrite <- mcol2_mv in C2.
  assert (T0 : 0 < / a * a') by (apply Rmult_lt_0_compat; [apply Rinv_0_lt_compat|]; assumption).
  assert (T1 : 0 < / y1 * y1') by (apply Rmult_lt_0_compat; [apply Rinv_0_lt_compat|]; assumption).
  assert (T2 : 0 < / z2 * z2') by (apply Rmult_lt_0_compat; [apply Rinv_0_lt_compat|]; assumption).
  assert (S : (1 - m00 V) + (1 - m11 V) + (1 - m22 V) <= 5 * (g * g)).
  { apply entry_bounds; try assumption.
    - assert (Q : vdist (comb (/ a) 0 0 (mkV3 a' 0 0) (mkV3 x1' y1' 0) (mkV3 x2' y2' z2')) (mcol0 V) * vdist (comb (/ a) 0 0 (mkV3 a' 0 0) (mkV3 x1' y1' 0) (mkV3 x2' y2' z2')) (mcol0 V) <= g * g).
      { apply Rmult_le_compat; try assumption; apply vdist_nonneg. }
      unfold vdist in Q. rewrite vlen_sq in Q. revert Q. unfold comb, mcol0. ru_spec. intros Q.
      match type of Q with ?x * ?x + _ + _ <= _ => pose proof (Rle_0_sqr x) as X end. unfold Rsqr in X.
      lra.
    - assert (K := Rle_trans _ _ _ (comp_len _ 2) C1). rewrite comp_vsub in K.
      replace (comp (comb (- (x1 / (a * y1))) (/ y1) 0 (mkV3 a' 0 0) (mkV3 x1' y1' 0) (mkV3 x2' y2' z2')) 2) with 0 in K by (unfold comb; cbn [comp]; ru_spec; ring).
      change (comp (mcol1 V) 2) with (m21 V) in K. rewrite Rminus_0_l, Rabs_Ropp in K.
      rewrite <- (Rabs_pos_eq (m21 V * m21 V)) by apply Rle_0_sqr. rewrite Rabs_mult. apply Rmult_le_compat; try assumption; apply Rabs_pos.
    - assert (K := Rle_trans _ _ _ (comp_len _ 0) C0). rewrite comp_vsub in K.
      replace (comp (comb (/ a) 0 0 (mkV3 a' 0 0) (mkV3 x1' y1' 0) (mkV3 x2' y2' z2')) 0) with (/ a * a') in K by (unfold comb; cbn [comp]; ru_spec; ring).
      change (comp (mcol0 V) 0) with (m00 V) in K. apply Rabs_le_inv in K. lra.
    - assert (K := Rle_trans _ _ _ (comp_len _ 1) C1). rewrite comp_vsub in K.
      replace (comp (comb (- (x1 / (a * y1))) (/ y1) 0 (mkV3 a' 0 0) (mkV3 x1' y1' 0) (mkV3 x2' y2' z2')) 1) with (/ y1 * y1') in K by (unfold comb; cbn [comp]; ru_spec; ring).
      change (comp (mcol1 V) 1) with (m11 V) in K. apply Rabs_le_inv in K. lra.
    - assert (K := Rle_trans _ _ _ (comp_len _ 2) C2). rewrite comp_vsub in K.
      replace (comp (comb p2 (- (y2 / (y1 * z2))) (/ z2) (mkV3 a' 0 0) (mkV3 x1' y1' 0) (mkV3 x2' y2' z2')) 2) with (/ z2 * z2') in K by (unfold comb; cbn [comp]; ru_spec; ring).
      change (comp (mcol2 V) 2) with (m22 V) in K. apply Rabs_le_inv in K. lra. }
  assert (FIN : forall v, 3.1623 * g * vlen v <= 5.48 * (e / lam) * vlen v).
  { intros v. apply Rmult_le_compat_r; [apply vlen_nonneg|]. unfold g. lra. }
  intros v. split; (eapply Rle_trans; [apply near_identity|apply FIN]); try lra; try assumption. apply orthogonal_mtr. exact O.
Qed.
