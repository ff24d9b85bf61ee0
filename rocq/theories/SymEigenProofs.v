(** * SymEigenProofs.v - nalgebra's 3x3 SVD over the reals: tridiagonalization and QR steps *)

From Coq Require Import Reals List Arith Lra Lia Psatz.
From Verif Require Import Scalar Linalg Householder RayIntersection SymEigen Spec SpecIsect RealBase VecLemmas FromViewProofs QRProofs.
Import ListNotations.
Local Open Scope R_scope.

Definition tri (d : V3 R) (o : V2 R) : M33 R := mkM33 (vx d) (px o) 0 (px o) (vy d) (py o) 0 (py o) (vz d).
Definition sim (q t : M33 R) : M33 R := mm (mm q t) (mtr q).

(** ** Tridiagonalization *)
Lemma block_R x y a b c : tridiag_block [x; y] (a, b, c)
  = (a - 4 * x * (a * x + b * y) + 4 * (x * (a * x + b * y) + y * (b * x + c * y)) * x * x,
     b - 2 * x * (b * x + c * y) - 2 * y * (a * x + b * y) + 4 * (x * (a * x + b * y) + y * (b * x + c * y)) * x * y,
     c - 4 * y * (b * x + c * y) + 4 * (x * (a * x + b * y) + y * (b * x + c * y)) * y * y).
Proof. unfold tridiag_block. rewrite o_two_R. cbn [o_add o_mul o_neg o_one R_ops]. f_equal; [f_equal|]; ring. Qed.
Lemma last_R z a : tridiag_last [z] a = (1 - 2 * z * z) * (1 - 2 * z * z) * a.
Proof. unfold tridiag_last. rewrite o_two_R. cbn [o_add o_mul o_neg o_one R_ops]. ring. Qed.

Lemma undo g1 g2 A : mm g1 g1 = mI -> mm g2 g2 = mI -> A = mm (mm (mm g1 g2) (mm g2 (mm (mm g1 (mm A g1)) g2))) (mm g2 g1).
Proof.
  intros Q1 Q2. rewrite <- !mm_assoc. rewrite (mm_assoc g2 g2), Q2, mm_I_l. rewrite (mm_assoc g2 g2), Q2, mm_I_l, Q1, mm_I_r.
  rewrite (mm_assoc g1 g1), Q1, mm_I_l. reflexivity.
Qed.
Lemma tridiagonalize_spec m : mtr m = m -> exists q d o, tridiagonalize m = (q, d, o) /\ orthogonal q /\ m = sim q (tri d o).
Proof.
  intros Sy. destruct m as [a b' c' b d e' c e f]. apply M33_inv in Sy. unfold mtr in Sy. cbn [m00 m01 m02 m10 m11 m12 m20 m21 m22] in Sy.
  destruct Sy as (_ & Sy1 & Sy2 & _ & _ & Sy3 & _). subst b' c' e'.
  unfold tridiagonalize. cbn [m00 m01 m02 m10 m11 m12 m20 m21 m22].
  destruct (axis_spec b [c]) as (ax0 & r0 & nz0 & E0 & L0 & F0 & O0).
  apply list2 in L0. destruct L0 as (y & z & ->). rewrite E0.
  pose proof (signum_sq r0) as S0. set (s := o_signum r0) in *.
  rewrite reflect2 in F0. cbn [length repeat] in F0.
  assert (Q1 : mm (G1 y z s) (G1 y z s) = mI).
  { apply G1_sq; [exact S0|]. destruct O0 as [[_ H]|(_ & H & _)]; [left; simpl in H; lra|right].
    simpl in H. injection H as -> ->. auto. }
  set (B := tridiag_block [y; z] (d, e, f)).
  assert (EB : (if nz0 then B else (d, e, f)) = B).
  { destruct O0 as [[-> _]|(-> & H & _)]; [reflexivity|]. simpl in H. injection H as -> ->. unfold B. rewrite block_R. f_equal; [f_equal|]; ring. }
  rewrite EB. unfold B. rewrite block_R. clear EB B.
  match goal with |- context [reflection_axis_mut [?t]] => set (a21 := t) end.
  match goal with |- context [mkV3 a ?t _] => set (a11 := t) end.
  match goal with |- context [tridiag_last _ ?t] => set (a22 := t) end.
  destruct (axis_spec a21 []) as (ax1 & r1 & nz1 & E1 & L1 & F1 & O1).
  apply list1 in L1. destruct L1 as (w & ->). rewrite E1.
  pose proof (signum_sq r1) as S1. set (t := o_signum r1) in *.
  rewrite reflect1 in F1. cbn [length repeat] in F1.
  assert (Q2 : mm (G2 w t) (G2 w t) = mI).
  { apply G2_sq; [exact S1|]. destruct O1 as [[_ H]|(_ & H & _)]; [left; simpl in H; lra|right].
    simpl in H. now injection H as ->. }
  assert (EL : (if nz1 then tridiag_last [w] a22 else a22) = tridiag_last [w] a22).
  { destruct O1 as [[-> _]|(-> & H & _)]; [reflexivity|]. simpl in H. injection H as ->. rewrite last_R. ring. }
  rewrite EL, last_R. clear EL.
  pose proof (f_equal (fun l => nth 0 l 0) F0) as F01. pose proof (f_equal (fun l => nth 1 l 0) F0) as F02. pose proof (f_equal (fun l => nth 0 l 0) F1) as F11.
  cbn [nth] in F01, F02, F11.
  do 3 eexists. split; [reflexivity|].
  match goal with |- orthogonal ?x /\ _ => assert (EQ : x = mm (G1 y z s) (G2 w t)) end.
  { cbn [map_cols Nat.leb]. unfold on_rows_from. cbn [firstn skipn app o_zero o_one R_ops]. rewrite !reflect1. cbn [firstn skipn app]. rewrite !reflect2.
    unfold m33_of_cols. cbn [nth app]. unfold G1, G2. apply M33_eq; ru_spec; ring. }
  rewrite EQ.
  assert (O1' : orthogonal (G1 y z s)) by (apply sym_sq_orthogonal; [unfold G1; apply M33_eq; ru_spec; ring|exact Q1]).
  assert (O2' : orthogonal (G2 w t)) by (apply sym_sq_orthogonal; [unfold G2; apply M33_eq; ru_spec; ring|exact Q2]).
  split; [now apply orthogonal_mm|].
  assert (K : mm (G2 w t) (mm (mm (G1 y z s) (mm (mkM33 a b c b d e c e f) (G1 y z s))) (G2 w t))
              = tri (mkV3 a a11 ((1 - 2 * w * w) * (1 - 2 * w * w) * a22)) (mkV2 (Rabs r0) (Rabs r1))).
  { assert (K1 : mm (G1 y z s) (mm (mkM33 a b c b d e c e f) (G1 y z s)) = mkM33 a (Rabs r0) 0 (Rabs r0) a11 a21 0 a21 a22).
    { rewrite <- F01. rewrite <- F02 at 1 2. unfold a11, a21, a22. clear -S0. assert (S2 : s ^ 2 = 1) by (rewrite <- S0; ring).
      apply M33_eq; unfold G1; ru_spec; ring [S2]. }
    rewrite K1. unfold tri. cbn [vx vy vz px py]. rewrite <- F11. clear -S1. assert (S2 : t ^ 2 = 1) by (rewrite <- S1; ring).
    clearbody a11 a21 a22. apply M33_eq; unfold G2; ru_spec; ring [S2]. }
  unfold sim. cbn [o_abs R_ops]. rewrite <- K. clear K.
  assert (T1 : mtr (G1 y z s) = G1 y z s) by (unfold G1; apply M33_eq; ru_spec; ring).
  assert (T2 : mtr (G2 w t) = G2 w t) by (unfold G2; apply M33_eq; ru_spec; ring).
  rewrite mtr_mm, T1, T2. now apply undo.
Qed.

(** ** Givens rotations *)
Lemma Rabs_sgn x : exists m sg, to_exp x = (m, sg) /\ m = Rabs x /\ sg * m = x /\ sg * sg = 1.
Proof.
  unfold to_exp. cbn [o_leb o_zero o_one o_neg R_ops]. destruct (Rleb 0 x) eqn:E.
  - apply Rleb_true in E. exists x, 1. rewrite Rabs_pos_eq by exact E. repeat split; lra.
  - apply Rleb_false in E. exists (- x), (- (1)). rewrite Rabs_left by lra. repeat split; lra.
Qed.
Lemma cancel_y_spec x y : (cancel_y (mkV2 x y) = None /\ y = 0) \/
  exists c s n, cancel_y (mkV2 x y) = Some (c, s, n) /\ c * c + s * s = 1 /\ c * x - s * y = n /\ s * x + c * y = 0.
Proof.
  unfold cancel_y. cbn [px py o_eqb o_zero R_ops]. destruct (Reqb y 0) eqn:E; cbn [negb].
  - apply Reqb_true in E. auto.
  - apply Reqb_false in E. right. destruct (Rabs_sgn x) as (m & sg & -> & _ & X & S). cbn [o_mul o_add o_sqrt o_div o_neg R_ops].
    do 3 eexists. split; [reflexivity|]. set (D := sqrt (m * m + y * y)).
    assert (P : 0 < m * m + y * y) by nra. assert (DD : D * D = m * m + y * y) by (apply sqrt_sqrt; lra).
    assert (D0 : 0 < D) by (apply sqrt_lt_R0; exact P). assert (sg <> 0) by nra. subst x.
    assert (Sg : / sg = sg) by (apply (Rmult_eq_reg_l sg); [rewrite Rinv_r by assumption; lra|assumption]).
    repeat split.
    + replace (m / D * (m / D) + - y / (sg * D) * (- y / (sg * D))) with ((m * m + y * y * (/ sg * / sg)) / (D * D)) by (field; lra).
      rewrite Sg, S, DD. field. lra.
    + replace (m / D * (sg * m) - - y / (sg * D) * y) with ((m * m * sg + y * y * / sg) / D) by (field; lra).
      rewrite Sg. replace (m * m * sg + y * y * sg) with (sg * (D * D)) by (rewrite DD; ring). field. lra.
    + field. lra.
Qed.
Lemma givens_spec x y eps : 0 <= eps -> (givens_try_new x y eps = None /\ Rabs x <= eps /\ Rabs y <= eps) \/
  exists c s, givens_try_new x y eps = Some (c, s) /\ c * c + s * s = 1 /\ c * y = s * x /\ 0 < x * x + y * y.
Proof.
  intros E0. unfold givens_try_new. destruct (Rabs_sgn x) as (m & sg & -> & Am & X & S). cbn [o_mul o_add o_sqrt o_div o_ltb R_ops].
  set (D := sqrt (m * m + y * y)). assert (P : 0 <= m * m + y * y) by nra. assert (DD : D * D = m * m + y * y) by (apply sqrt_sqrt; lra).
  assert (D0 : 0 <= D) by apply sqrt_pos.
  destruct (Rltb eps D) eqn:E.
  - apply Rltb_true in E. right. do 2 eexists. split; [reflexivity|]. assert (sg <> 0) by nra. subst x.
    assert (Sg : / sg = sg) by (apply (Rmult_eq_reg_l sg); [rewrite Rinv_r by assumption; lra|assumption]).
    split.
    + replace (m / D * (m / D) + y / (sg * D) * (y / (sg * D))) with ((m * m + y * y * (/ sg * / sg)) / (D * D)) by (field; lra).
      rewrite Sg, S, DD. field. nra.
    + split; [field; lra|]. replace (sg * m * (sg * m)) with (sg * sg * (m * m)) by ring. rewrite S. nra.
  - apply Rltb_false in E. left. split; [reflexivity|]. rewrite <- Am. split; [|apply Rsqr_incr_0_var; [rewrite <- Rsqr_abs|]]; unfold Rsqr; try nra.
Qed.

Definition rot01 (c s : R) : M33 R := mkM33 c (- s) 0 s c 0 0 0 1.
Definition rot12 (c s : R) : M33 R := mkM33 1 0 0 0 c (- s) 0 s c.
Lemma rot01_orth c s : c * c + s * s = 1 -> orthogonal (rot01 c s).
Proof. intros H. split; apply M33_eq; unfold rot01; ru_spec; lra. Qed.
Lemma rot12_orth c s : c * c + s * s = 1 -> orthogonal (rot12 c s).
Proof. intros H. split; apply M33_eq; unfold rot12; ru_spec; lra. Qed.
Lemma rotate_rows_0 c s q : rotate_rows c s 0 q = Some (mm q (rot01 c s)).
Proof. destruct q. cbv -[Rmult Rplus Ropp IZR mm rot01]. f_equal. apply M33_eq; unfold rot01; ru_spec; ring. Qed.
Lemma rotate_rows_1 c s q : rotate_rows c s 1 q = Some (mm q (rot12 c s)).
Proof. destruct q. cbv -[Rmult Rplus Ropp IZR mm rot12]. f_equal. apply M33_eq; unfold rot12; ru_spec; ring. Qed.

(** a similarity of the middle factor can be moved into the outer ones *)
Lemma sim_mm q g t : orthogonal g -> sim (mm q (mtr g)) (mm (mm g t) (mtr g)) = sim q t.
Proof.
  intros (G1 & G2). unfold sim. rewrite mtr_mm, mtr_mtr. rewrite <- !mm_assoc.
  rewrite (mm_assoc (mtr g) g), G1, mm_I_l. rewrite (mm_assoc (mtr g) g), G1, mm_I_l. reflexivity.
Qed.
Lemma mtr_rot01 c s : mtr (rot01 c s) = rot01 c (- s).
Proof. apply M33_eq; unfold rot01; ru_spec; ring. Qed.
Lemma mtr_rot12 c s : mtr (rot12 c s) = rot12 c (- s).
Proof. apply M33_eq; unfold rot12; ru_spec; ring. Qed.

Lemma chase_spec x d0 d1 d2 o0 o1 q : orthogonal q -> exists d' o' q',
  chase 0 2 2 0 (mkV2 x o0) (mkV3 d0 d1 d2, mkV2 o0 o1, q) = Some (d', o', q') /\ orthogonal q' /\
  sim q' (tri d' o') = sim q (tri (mkV3 d0 d1 d2) (mkV2 o0 o1)).
Proof.
  intros Oq. cbn [chase]. destruct (cancel_y_spec x o0) as [(-> & Z)|(c & s & n & -> & C & _ & _)]; [do 3 eexists; split; [reflexivity|]; split; [exact Oq|reflexivity]|].
  cbn [Nat.ltb Nat.leb bind v3_get v3_set v2_get v2_set Nat.add vx vy vz px py Nat.eqb Nat.sub negb fst snd].
  rewrite rotate_rows_0. cbn [bind o_mul o_add o_sub o_neg R_ops]. rewrite o_two_R. rewrite <- mtr_rot01.
  match goal with |- context [cancel_y (mkV2 ?a ?b)] => set (f0 := a); set (bl := b) end.
  pose proof (rot01_orth c s C) as O1. pose proof (orthogonal_mm _ _ Oq (orthogonal_mtr _ O1)) as Oq1.
  set (q1 := mm q (mtr (rot01 c s))) in *.
  match goal with |- context [mkV3 ?a ?b d2] => set (e0 := a); set (e1 := b) end.
  assert (K1 : sim q1 (mkM33 e0 f0 bl f0 e1 (o1 * c) bl (o1 * c) d2) = sim q (tri (mkV3 d0 d1 d2) (mkV2 o0 o1))).
  { unfold q1. rewrite <- (sim_mm q (rot01 c s) (tri _ _)) by exact O1. f_equal.
    unfold e0, e1, f0, bl, tri, rot01. cbn [vx vy vz px py]. apply M33_eq; ru_spec; ring. }
  rewrite <- K1. clear K1. clearbody q1 e0 e1 f0 bl.
  destruct (cancel_y_spec f0 bl) as [(-> & Z)|(c' & s' & n' & -> & C' & N' & Z')].
  { do 3 eexists. split; [reflexivity|]. split; [exact Oq1|]. f_equal. unfold tri. cbn [vx vy vz px py]. now rewrite Z. }
  cbn [bind]. rewrite rotate_rows_1. cbn [bind]. rewrite <- mtr_rot12. do 3 eexists. split; [reflexivity|].
  pose proof (rot12_orth c' s' C') as O2. split; [exact (orthogonal_mm _ _ Oq1 (orthogonal_mtr _ O2))|].
  rewrite <- (sim_mm q1 (rot12 c' s') (mkM33 _ _ _ _ _ _ _ _ _)) by exact O2. f_equal.
  unfold tri, rot12. cbn [vx vy vz px py]. rewrite <- N'. rewrite <- Z' at 1 2. apply M33_eq; ru_spec; ring.
Qed.
