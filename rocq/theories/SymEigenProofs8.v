(** * SymEigenProofs8.v - one step of the iteration with the Wilkinson shift: how fast the entries beside the diagonal shrink *)

From Coq Require Import Reals List Arith Lra Lia Psatz.
From Verif Require Import Scalar Linalg Householder RayIntersection SymEigen Spec SpecIsect RealBase VecLemmas FromViewProofs QRProofs
  TriProofs SymEigenProofs SymEigenProofs2 SymEigenProofs3.
Import ListNotations.
Local Open Scope R_scope.

(** ** The shift *)
Lemma wilkinson_spec a2 a3 b : b <> 0 -> let w := wilkinson_shift a2 a3 b in
  (a2 - w) * (a3 - w) = b * b /\ (a3 - w) * (a3 - w) <= b * b.
Proof.
  intros B. unfold wilkinson_shift. cbn [o_mul o_add o_sub o_div o_sqrt o_eqb o_zero R_ops]. rewrite half_R.
  assert (BB : 0 < b * b) by nra.
  destruct (Reqb (b * b) 0) eqn:E; [apply Reqb_true in E; lra|]. cbn [negb].
  set (h := (a2 - a3) * / 2). replace a2 with (a3 + 2 * h) by (unfold h; field).
  assert (P : 0 <= h * h + b * b) by nra. pose proof (sqrt_sqrt _ P) as Q. pose proof (sqrt_pos (h * h + b * b)) as P'.
  set (r := sqrt (h * h + b * b)) in *. assert (R0 : 0 < r) by nra. assert (RB : b * b <= r * r) by nra.
  cbv zeta.
  destruct (signum_cases h) as [(-> & S)|(-> & S)].
  - set (k := h + 1 * r). assert (K : 0 < k) by (unfold k; lra). assert (KK : b * b <= k * k) by (unfold k; nra).
    assert (KE : k * k = 2 * h * k + b * b) by (unfold k; nra). clearbody k.
    replace (a3 + 2 * h - (a3 - b * b / k)) with ((2 * h * k + b * b) / k) by (field; lra).
    replace (a3 - (a3 - b * b / k)) with (b * b / k) by ring. rewrite <- KE. split; [field; lra|].
    replace (b * b / k * (b * b / k)) with (b * b * (b * b / (k * k))) by (field; lra).
    assert (b * b / (k * k) <= 1); [|nra]. apply (Rmult_le_reg_r (k * k)); [nra|]. unfold Rdiv. rewrite Rmult_assoc, Rinv_l by nra. lra.
  - set (k := h + -1 * r). assert (K : k < 0) by (unfold k; lra). assert (KK : b * b <= k * k) by (unfold k; nra).
    assert (KE : k * k = 2 * h * k + b * b) by (unfold k; nra). clearbody k.
    replace (a3 + 2 * h - (a3 - b * b / k)) with ((2 * h * k + b * b) / k) by (field; lra).
    replace (a3 - (a3 - b * b / k)) with (b * b / k) by ring. rewrite <- KE. split; [field; lra|].
    replace (b * b / k * (b * b / k)) with (b * b * (b * b / (k * k))) by (field; lra).
    assert (b * b / (k * k) <= 1); [|nra]. apply (Rmult_le_reg_r (k * k)); [nra|]. unfold Rdiv. rewrite Rmult_assoc, Rinv_l by nra. lra.
Qed.

(** ** The entries beside the diagonal after a step *)
Lemma rot_products x y c s : c * c + s * s = 1 -> s * x + c * y = 0 ->
  c * c * (x * x + y * y) = x * x /\ s * s * (x * x + y * y) = y * y /\ c * s * (x * x + y * y) = - (x * y).
Proof.
  intros C Z. assert (Z1 : s * x = - (c * y)) by lra. repeat split.
  - replace (c * c * (x * x + y * y)) with (c * c * (x * x) + (c * y) * (c * y)) by ring.
    replace ((c * y) * (c * y)) with ((s * x) * (s * x)) by (rewrite Z1; ring).
    replace (c * c * (x * x) + s * x * (s * x)) with ((c * c + s * s) * (x * x)) by ring. rewrite C. ring.
  - replace (s * s * (x * x + y * y)) with ((s * x) * (s * x) + s * s * (y * y)) by ring. rewrite Z1.
    replace (- (c * y) * - (c * y) + s * s * (y * y)) with ((c * c + s * s) * (y * y)) by ring. rewrite C. ring.
  - replace (c * s * (x * x + y * y)) with (c * x * (s * x) + s * y * (c * y)) by ring. rewrite Z1.
    replace (c * y) with (- (s * x)) by lra.
    replace (c * x * - - (s * x) + s * y * - (s * x)) with (s * x * (c * x) - s * s * (x * y)) by ring. rewrite Z1.
    replace (- (c * y) * (c * x) - s * s * (x * y)) with (- ((c * c + s * s) * (x * y))) by ring. rewrite C. ring.
Qed.
Lemma step_algebra e0 e1 e2 o0 o1 c s c' s' f0 y : o0 <> 0 -> o1 <> 0 ->
  c * c + s * s = 1 -> s * e0 + c * o0 = 0 -> f0 = c * s * (e0 - e1) + o0 * (c * c - s * s) ->
  c' * c' + s' * s' = 1 -> s' * f0 + c' * (- s * o1) = 0 ->
  y = c' * s' * (s * s * e0 + c * c * e1 + c * s * 2 * o0 - e2) + o1 * c * (c' * c' - s' * s') ->
  let r2 := e0 * e0 + o0 * o0 in let g := e0 * e1 - o0 * o0 in let n := r2 * (o1 * o1) + g * g in
  let m := f0 * f0 + (- s * o1) * (- s * o1) in
  m * (r2 * r2) = o0 * o0 * n /\
  y * y * (n * n) = o1 * o1 * r2 * ((e0 * (o1 * o1) - g * e2) * (e0 * (o1 * o1) - g * e2)).
Proof.
  intros N0 N1 C Z F C' Z' Y r2 g n m.
  destruct (rot_products _ _ _ _ C Z) as (PC & PS & PCS). destruct (rot_products _ _ _ _ C' Z') as (PC' & PS' & PCS').
  fold r2 in PC, PS, PCS. fold m in PC', PS', PCS'.
  assert (R2 : 0 < r2) by (unfold r2; nra).
  assert (Fr : f0 * r2 = o0 * g).
  { rewrite F. replace ((c * s * (e0 - e1) + o0 * (c * c - s * s)) * r2) with (c * s * r2 * (e0 - e1) + o0 * (c * c * r2 - s * s * r2)) by ring.
    rewrite PC, PS, PCS. unfold g. ring. }
  assert (E1 : (s * s * e0 + c * c * e1 + c * s * 2 * o0) * r2 = e0 * g).
  { replace ((s * s * e0 + c * c * e1 + c * s * 2 * o0) * r2) with (s * s * r2 * e0 + c * c * r2 * e1 + c * s * r2 * 2 * o0) by ring.
    rewrite PC, PS, PCS. unfold g. ring. }
  assert (M1 : m * (r2 * r2) = o0 * o0 * n).
  { unfold m. replace ((f0 * f0 + - s * o1 * (- s * o1)) * (r2 * r2)) with (f0 * r2 * (f0 * r2) + s * s * r2 * (o1 * o1 * r2)) by ring.
    rewrite Fr, PS. unfold n. ring. }
  split; [exact M1|].
  assert (Np : 0 < n) by (unfold n; assert (0 < o1 * o1) by nra; assert (0 < r2 * (o1 * o1)) by nra; nra).
  set (h := e0 * (o1 * o1) - g * e2).
  assert (K : o0 * n * y = o1 * s * r2 * h).
  { apply (Rmult_eq_reg_l (o0 * o0)); [|nra].
    replace (o0 * o0 * (o0 * n * y)) with (o0 * (o0 * o0 * n) * y) by ring. rewrite <- M1.
    replace (o0 * (m * (r2 * r2)) * y) with (o0 * r2 * r2 * (m * y)) by ring.
    rewrite Y. replace (m * (c' * s' * (s * s * e0 + c * c * e1 + c * s * 2 * o0 - e2) + o1 * c * (c' * c' - s' * s')))
      with (c' * s' * m * (s * s * e0 + c * c * e1 + c * s * 2 * o0 - e2) + o1 * c * (c' * c' * m - s' * s' * m)) by ring.
    rewrite PC', PS', PCS'.
    set (E := s * s * e0 + c * c * e1 + c * s * 2 * o0) in *.
    replace (o0 * r2 * r2 * (- (f0 * (- s * o1)) * (E - e2) + o1 * c * (f0 * f0 - - s * o1 * (- s * o1))))
      with (o1 * (o0 * s * (f0 * r2) * (E * r2 - e2 * r2) + (c * o0) * ((f0 * r2) * (f0 * r2) - o1 * o1 * r2 * (s * s * r2)))) by ring.
    rewrite E1, Fr, PS. replace (c * o0) with (- (s * e0)) by lra. unfold h, r2. ring. }
  apply (Rmult_eq_reg_l (o0 * o0)); [|nra].
  replace (o0 * o0 * (y * y * (n * n))) with (o0 * n * y * (o0 * n * y)) by ring. rewrite K.
  replace (o1 * s * r2 * h * (o1 * s * r2 * h)) with (o1 * o1 * r2 * (h * h) * (s * s * r2)) by ring. rewrite PS. ring.
Qed.
Lemma step_off w d0 d1 d2 o0 o1 q d' o' q' : o0 <> 0 -> o1 <> 0 ->
  chase 0 2 2 0 (mkV2 (d0 - w) o0) (mkV3 d0 d1 d2, mkV2 o0 o1, q) = Some (d', o', q') ->
  let e0 := d0 - w in let e1 := d1 - w in let e2 := d2 - w in
  let r2 := e0 * e0 + o0 * o0 in let g := e0 * e1 - o0 * o0 in let n := r2 * (o1 * o1) + g * g in
  px o' * px o' * (r2 * r2) = o0 * o0 * n /\
  py o' * py o' * (n * n) = o1 * o1 * r2 * ((e0 * (o1 * o1) - g * e2) * (e0 * (o1 * o1) - g * e2)).
Proof.
  intros N0 N1. cbn [chase]. destruct (cancel_y_spec (d0 - w) o0) as [(_ & Z)|(c & s & n & -> & C & _ & Z)]; [congruence|].
  cbn [Nat.ltb Nat.leb bind v3_get v3_set v2_get v2_set Nat.add vx vy vz px py Nat.eqb Nat.sub negb fst snd].
  rewrite rotate_rows_0. cbn [bind o_mul o_add o_sub o_neg R_ops]. rewrite o_two_R.
  match goal with |- context [cancel_y (mkV2 ?a ?b)] => set (f0 := a); set (bl := b) end.
  assert (S0 : s <> 0). { intros ->. apply N0. assert (c <> 0) by nra. apply (Rmult_eq_reg_l c); lra. }
  assert (B0 : bl <> 0). { unfold bl. intros Q. apply (Rmult_integral_contrapositive (- s) o1); [split; [lra|exact N1]|exact Q]. }
  destruct (cancel_y_spec f0 bl) as [(_ & Q)|(c' & s' & n' & -> & C' & N' & Z')]; [congruence|].
  cbn [bind]. rewrite rotate_rows_1. cbn [bind]. intros Q. injection Q as <- <- <-. cbn [px py].
  match goal with |- _ /\ ?y * ?y * _ = _ => set (yy := y) end.
  destruct (step_algebra (d0 - w) (d1 - w) (d2 - w) o0 o1 c s c' s' f0 yy N0 N1 C Z ltac:(unfold f0; ring) C' Z') as (M1 & M2).
  { unfold yy. replace (s * s * (d0 - w) + c * c * (d1 - w) + c * s * 2 * o0 - (d2 - w)) with (s * s * d0 + c * c * d1 + c * s * 2 * o0 - d2 + (1 - (c * c + s * s)) * w) by ring.
    rewrite C. ring. }
  cbv zeta. split; [|exact M2]. rewrite <- M1. f_equal. fold bl. rewrite <- N'.
  transitivity ((c' * c' + s' * s') * (f0 * f0 + bl * bl)); [|rewrite C'; ring].
  replace ((c' * c' + s' * s') * (f0 * f0 + bl * bl)) with ((c' * f0 - s' * bl) * (c' * f0 - s' * bl) + (s' * f0 + c' * bl) * (s' * f0 + c' * bl)) by ring.
  fold bl in Z'. rewrite Z'. ring.
Qed.

(** ** Rates.  [a], [b]: squares of the entries beside the diagonal; [e0], [e1], [e2]: the diagonal less the shift *)
Lemma quad_min e0 e1 a b : 0 <= b -> a * a * b <= (b * (e0 * e0) + (e0 * e1 - a) * (e0 * e1 - a)) * (b + e1 * e1).
Proof.
  intros B. pose proof (Rle_0_sqr (e0 * (b + e1 * e1) - a * e1)) as P. unfold Rsqr in P. nra.
Qed.
Lemma shift_n e0 e1 e2 a b : 0 < a -> 0 < b -> e1 * e2 = b -> e2 * e2 <= b ->
  let n := (e0 * e0 + a) * b + (e0 * e1 - a) * (e0 * e1 - a) in let q := e2 * e2 in let f := e1 * e1 in
  0 < q /\ q <= b /\ b <= f /\ q * f = b * b /\ 0 < n /\ a * b <= n /\ (e0 * e0 + a) * b <= n /\ a * b + a * (a * q) / (2 * b) <= n.
Proof.
  intros A B E12 E2 n q f.
  assert (QF : q * f = b * b) by (unfold q, f; rewrite <- E12; ring).
  assert (Q0 : 0 < q).
  { unfold q. assert (e2 <> 0) by (intros ->; lra). nra. }
  assert (BF : b <= f) by (apply (Rmult_le_reg_l q); [exact Q0|]; rewrite QF; fold q in E2; nra).
  pose proof (quad_min e0 e1 a b (Rlt_le _ _ B)) as QM. fold f in QM.
  set (k := b * (e0 * e0) + (e0 * e1 - a) * (e0 * e1 - a)) in *.
  assert (K0 : 0 <= k) by (unfold k; pose proof (Rle_0_sqr e0) as P1; pose proof (Rle_0_sqr (e0 * e1 - a)) as P2; unfold Rsqr in P1, P2; clear -P1 P2 B; generalize dependent (e0 * e0); generalize dependent ((e0 * e1 - a) * (e0 * e1 - a)); intros; nra).
  assert (NK : n = a * b + k) by (unfold n, k; ring).
  assert (K1 : a * (a * q) / (2 * b) <= k).
  { apply (Rmult_le_reg_r (2 * b)); [lra|]. replace (a * (a * q) / (2 * b) * (2 * b)) with (a * a * q) by (field; lra).
    apply (Rmult_le_reg_r b); [lra|].
    replace (a * a * q * b) with (a * a * b * q) by ring. apply Rle_trans with (k * (b + f) * q); [nra|].
    replace (k * (b + f) * q) with (k * (q * b + q * f)) by ring. rewrite QF. fold q in E2.
    replace (k * (2 * b) * b) with (k * (2 * (b * b))) by ring. apply Rmult_le_compat_l; [exact K0|nra]. }
  assert (AB : 0 < a * b) by nra.
  repeat split; try assumption; try lra.
  unfold n. pose proof (Rle_0_sqr (e0 * e1 - a)) as P. unfold Rsqr in P. lra.
Qed.
Lemma amgm x y : 0 <= x -> 0 <= y -> 27 * (x * x * y) <= (2 * x + y) * (2 * x + y) * (2 * x + y).
Proof.
  intros X Y. pose proof (Rmult_le_pos _ _ (Rle_0_sqr (x - y)) (ltac:(lra) : 0 <= 8 * x + y)) as P. unfold Rsqr in P.
  assert (E : (2 * x + y) * (2 * x + y) * (2 * x + y) - 27 * (x * x * y) = (x - y) * (x - y) * (8 * x + y)) by ring. lra.
Qed.
Lemma cube_le x y : 0 <= x -> x <= y -> x * x * x <= y * y * y.
Proof. intros X Y. assert (x * x <= y * y) by nra. assert (0 <= x * x) by nra. nra. Qed.
Lemma rate_linear a b q n : 0 < a -> 0 < b -> 0 < q -> q <= b -> a * b + a * (a * q) / (2 * b) <= n ->
  27 * (a * a * a * a * (q * q)) <= 8 * (n * n * n).
Proof.
  intros A B Q QB N. set (y := a * (a * q) / (2 * b)) in *.
  assert (Yb : y * (2 * b) = a * (a * q)) by (unfold y; field; lra).
  assert (Y : 0 < y) by (unfold y; apply Rdiv_lt_0_compat; [|lra]; assert (0 < a * q) by nra; nra). clearbody y.
  assert (AB : 0 < a * b) by nra.
  pose proof (amgm (a * b / 2) y ltac:(lra) ltac:(lra)) as G.
  replace (2 * (a * b / 2) + y) with (a * b + y) in G by field.
  pose proof (cube_le (a * b + y) n ltac:(lra) N) as CN.
  assert (K : 8 * (a * b / 2 * (a * b / 2) * y) = a * a * a * a * (b * q)).
  { replace (8 * (a * b / 2 * (a * b / 2) * y)) with (a * a * b * (y * (2 * b))) by field. rewrite Yb. ring. }
  assert (q * q <= b * q) by nra. assert (0 < a * a * a * a) by (assert (0 < a * a) by nra; nra). nra.
Qed.
Lemma rate_small a b q f e n : 0 < a -> 0 < b -> 0 < q -> q <= b -> b <= f -> q * f = b * b -> 0 <= e -> 0 < n ->
  a * b <= n -> (e + a) * b <= n -> a * b + a * (a * q) / (2 * b) <= n ->
  a * a * a * a * (q * q) * (e + a + f) <= 3 * a * (n * n * n) /\
  a * a * a * a * (q * q) * (e + a + f) <= 6 * b * (n * n * n).
Proof.
  intros A B Q QB BF QF E0 N0 N1 N2 N3. set (y := a * (a * q) / (2 * b)) in *.
  assert (Yb : y * (2 * b) = a * a * q) by (unfold y; field; lra).
  assert (AB : 0 < a * b) by nra. assert (Yn : y <= n) by lra.
  assert (N4 : a * a * q <= 2 * b * n) by nra.
  assert (A2 : 0 < a * a) by nra. assert (N22 : 0 < n * n) by nra.
  assert (AQ : 0 < a * a * q) by nra.
  (* the bound with [a] *)
  assert (P1 : a * a * a * q <= 2 * (n * n)).
  { apply (Rmult_le_reg_r b); [exact B|]. replace (a * a * a * q * b) with (a * b * (a * a * q)) by ring.
    apply Rle_trans with (n * (2 * b * n)); [|lra]. apply Rmult_le_compat; lra. }
  assert (P2 : a * a * a * (q * q) * (e + a) <= 2 * (n * n * n)).
  { apply Rle_trans with (2 * (n * n) * (b * (e + a))).
    - replace (a * a * a * (q * q) * (e + a)) with (a * a * a * q * (q * (e + a))) by ring.
      apply Rmult_le_compat; [|apply Rmult_le_pos; lra|exact P1|apply Rmult_le_compat_r; lra].
      replace (a * a * a * q) with (a * (a * a * q)) by ring. apply Rmult_le_pos; lra.
    - replace (2 * (n * n * n)) with (2 * (n * n) * n) by ring. apply Rmult_le_compat_l; lra. }
  assert (P3 : a * a * a * (q * q) * f <= n * n * n).
  { replace (a * a * a * (q * q) * f) with (a * a * a * q * (q * f)) by ring. rewrite QF.
    apply Rle_trans with (a * b * (a * b) * (a * b)); [|apply cube_le; lra].
    replace (a * a * a * q * (b * b)) with (a * b * (a * b) * (a * q)) by ring.
    apply Rmult_le_compat_l; [|apply Rmult_le_compat_l; lra]. apply Rmult_le_pos; lra. }
  (* the bound with [b] *)
  assert (P4 : a * a * a * a * (q * q) <= 2 * b * n * (2 * b * n)).
  { replace (a * a * a * a * (q * q)) with (a * a * q * (a * a * q)) by ring. apply Rmult_le_compat; lra. }
  assert (P5 : a * a * a * a * (q * q) * (e + a) <= 4 * b * (n * n * n)).
  { apply Rle_trans with (2 * b * n * (2 * b * n) * (e + a)); [apply Rmult_le_compat_r; lra|].
    replace (2 * b * n * (2 * b * n) * (e + a)) with (4 * b * (n * n) * ((e + a) * b)) by ring.
    replace (4 * b * (n * n * n)) with (4 * b * (n * n) * n) by ring. apply Rmult_le_compat_l; [|exact N2]. apply Rmult_le_pos; lra. }
  assert (P6 : a * a * a * a * (q * q) * f <= 2 * b * (n * n * n)).
  { replace (a * a * a * a * (q * q) * f) with (a * a * q * (a * a * (q * f))) by ring. rewrite QF.
    replace (a * a * (b * b)) with (a * b * (a * b)) by ring. replace (2 * b * (n * n * n)) with (2 * b * n * (n * n)) by ring.
    apply Rmult_le_compat; [lra|apply Rmult_le_pos; lra|exact N4|apply Rmult_le_compat; lra]. }
  split; [|lra].
  replace (a * a * a * a * (q * q) * (e + a + f)) with (a * (a * a * a * (q * q) * (e + a) + a * a * a * (q * q) * f)) by ring.
  replace (3 * a * (n * n * n)) with (a * (2 * (n * n * n) + n * n * n)) by ring. apply Rmult_le_compat_l; lra.
Qed.

(** ** The product which shrinks *)
Definition zz (o : V2 R) : R := py o * py o * (py o * py o) * (px o * px o).
(** the square of the distance from the multiples of the identity *)
Definition dev (d : V3 R) (o : V2 R) : R :=
  vx d * vx d + vy d * vy d + vz d * vz d + 2 * (px o * px o) + 2 * (py o * py o) - (vx d + vy d + vz d) * (vx d + vy d + vz d) / 3.
Lemma dev_shift d0 d1 d2 o0 o1 w : dev (mkV3 d0 d1 d2) (mkV2 o0 o1) <=
  (d0 - w) * (d0 - w) + (d1 - w) * (d1 - w) + (d2 - w) * (d2 - w) + 2 * (o0 * o0) + 2 * (o1 * o1).
Proof.
  unfold dev. cbn [vx vy vz px py]. pose proof (Rle_0_sqr (3 * w - (d0 + d1 + d2))) as P. unfold Rsqr in P. nra.
Qed.
Lemma dev_nonneg d o : 2 * (px o * px o + py o * py o) <= dev d o.
Proof.
  destruct d as [d0 d1 d2]. unfold dev. cbn [vx vy vz].
  pose proof (Rle_0_sqr (d0 - d1)) as P1. pose proof (Rle_0_sqr (d0 - d2)) as P2. pose proof (Rle_0_sqr (d1 - d2)) as P3. unfold Rsqr in *.
  assert (E : d0 * d0 + d1 * d1 + d2 * d2 - (d0 + d1 + d2) * (d0 + d1 + d2) / 3 = ((d0 - d1) * (d0 - d1) + (d0 - d2) * (d0 - d2) + (d1 - d2) * (d1 - d2)) / 3) by field.
  lra.
Qed.
Lemma sq_pos x : x <> 0 -> 0 < x * x.
Proof. intros N. destruct (Rtotal_order x 0) as [H|[H|H]]; [nra|congruence|nra]. Qed.
Lemma sq_nonneg x : 0 <= x * x.
Proof. exact (Rle_0_sqr x). Qed.
Lemma step_rate d0 d1 d2 o0 o1 q d' o' q' : o0 <> 0 -> o1 <> 0 ->
  chase 0 2 2 0 (mkV2 (d0 - wilkinson_shift d1 d2 o1) o0) (mkV3 d0 d1 d2, mkV2 o0 o1, q) = Some (d', o', q') ->
  let z := zz (mkV2 o0 o1) in let e := dev (mkV3 d0 d1 d2) (mkV2 o0 o1) in
  zz o' <= 8 / 27 * z /\ zz o' * zz o' * zz o' * (e * e * e) <= 24 * 24 * 24 * (z * z * z * z).
Proof.
  intros N0 N1 CH. pose proof (step_off _ _ _ _ _ _ _ _ _ _ N0 N1 CH) as SO. cbv zeta in SO.
  destruct (wilkinson_spec d1 d2 o1 N1) as (W1 & W2). set (w := wilkinson_shift d1 d2 o1) in *. clearbody w. clear CH.
  pose proof (dev_shift d0 d1 d2 o0 o1 w) as DV. cbv zeta. set (e := dev _ _) in *.
  assert (EP : 0 <= e) by (pose proof (dev_nonneg (mkV3 d0 d1 d2) (mkV2 o0 o1)) as P; cbn [px py] in P; fold e in P; pose proof (sq_nonneg o0); pose proof (sq_nonneg o1); lra).
  clearbody e. set (e0 := d0 - w) in *. set (e1 := d1 - w) in *. set (e2 := d2 - w) in *. clearbody e0 e1 e2.
  unfold zz. cbn [px py]. destruct SO as (X & Y). set (xx := px o' * px o') in *. set (yy := py o' * py o') in *.
  assert (X0 : 0 <= xx) by apply sq_nonneg. assert (Y0 : 0 <= yy) by apply sq_nonneg. clearbody xx yy.
  assert (A : 0 < o0 * o0) by now apply sq_pos. assert (B : 0 < o1 * o1) by now apply sq_pos. set (a := o0 * o0) in *. set (b := o1 * o1) in *. clearbody a b.
  destruct (shift_n e0 e1 e2 a b A B W1 W2) as (Q0 & QB & BF & QF & NP & N2 & N3 & N4).
  set (n := (e0 * e0 + a) * b + (e0 * e1 - a) * (e0 * e1 - a)) in *. set (r2 := e0 * e0 + a) in *.
  assert (R2 : 0 < r2) by (unfold r2; pose proof (sq_nonneg e0); lra).
  assert (Y' : yy * (n * n) = b * r2 * (a * a * (e2 * e2))).
  { rewrite Y. f_equal. replace (e0 * b - (e0 * e1 - a) * e2) with (a * e2 + e0 * (b - e1 * e2)) by ring. rewrite W1. ring. }
  set (q2 := e2 * e2) in *. set (f := e1 * e1) in *. clearbody q2 f.
  set (rho := a * a * a * a * (q2 * q2)).
  assert (Z : yy * yy * xx * (n * n * n) = b * b * a * rho).
  { apply (Rmult_eq_reg_r (n * (r2 * r2))); [|apply Rgt_not_eq; apply Rmult_lt_0_compat; [exact NP|now apply Rmult_lt_0_compat]].
    replace (yy * yy * xx * (n * n * n) * (n * (r2 * r2))) with (yy * (n * n) * (yy * (n * n)) * (xx * (r2 * r2))) by ring.
    rewrite X, Y'. unfold rho. ring. }
  assert (N3P : 0 < n * n * n) by (repeat apply Rmult_lt_0_compat; exact NP).
  assert (BBA : 0 < b * b * a) by (repeat apply Rmult_lt_0_compat; assumption).
  set (z' := yy * yy * xx) in *. assert (Z0 : 0 <= z') by (unfold z'; repeat apply Rmult_le_pos; assumption). clearbody z'.
  split.
  - pose proof (rate_linear a b q2 n A B Q0 QB N4) as RL. fold rho in RL.
    apply (Rmult_le_reg_r (n * n * n)); [exact N3P|]. rewrite Z.
    replace (8 / 27 * (b * b * a) * (n * n * n)) with (b * b * a * (8 / 27 * (n * n * n))) by ring. apply Rmult_le_compat_l; lra.
  - destruct (rate_small a b q2 f (e0 * e0) n A B Q0 QB BF QF (sq_nonneg e0) NP N2 N3 N4) as (S1 & S2). fold rho in S1, S2.
    assert (RP : 0 <= rho) by (unfold rho; repeat apply Rmult_le_pos; lra).
    assert (EB : e <= 4 * (e0 * e0 + a + f)) by (pose proof (sq_nonneg e0); clear -DV QB BF H A; lra).
    assert (T1 : rho * e <= 24 * a * (n * n * n)).
    { apply Rle_trans with (rho * (4 * (e0 * e0 + a + f))); [apply Rmult_le_compat_l; lra|]. pose proof (Rmult_lt_0_compat _ _ A N3P). lra. }
    assert (T2 : rho * e <= 24 * b * (n * n * n)).
    { apply Rle_trans with (rho * (4 * (e0 * e0 + a + f))); [apply Rmult_le_compat_l; lra|]. pose proof (Rmult_lt_0_compat _ _ A N3P). lra. }
    set (nn := n * n * n) in *. clearbody nn rho. set (z := b * b * a) in *.
    assert (RE : 0 <= rho * e) by now apply Rmult_le_pos.
    assert (T3 : rho * e * (rho * e) * (rho * e) <= 24 * 24 * 24 * z * (nn * nn * nn)).
    { apply Rle_trans with (24 * b * nn * (24 * b * nn) * (24 * a * nn)); [|unfold z; right; ring].
      apply Rmult_le_compat; [now apply Rmult_le_pos|exact RE|apply Rmult_le_compat; assumption|exact T1]. }
    apply (Rmult_le_reg_r (nn * nn * nn)); [repeat apply Rmult_lt_0_compat; exact N3P|].
    replace (z' * z' * z' * (e * e * e) * (nn * nn * nn)) with (z' * nn * (z' * nn) * (z' * nn) * (e * e * e)) by ring. rewrite Z.
    replace (z * rho * (z * rho) * (z * rho) * (e * e * e)) with (z * z * z * (rho * e * (rho * e) * (rho * e))) by ring.
    replace (24 * 24 * 24 * (z * z * z * z) * (nn * nn * nn)) with (z * z * z * (24 * 24 * 24 * z * (nn * nn * nn))) by ring.
    apply Rmult_le_compat_l; [|exact T3]. repeat apply Rmult_le_pos; lra.
Qed.
