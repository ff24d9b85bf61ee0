(** * SymEigenProofs5.v - nalgebra's 3x3 SVD over the reals: the decomposition *)

From Coq Require Import Reals List Arith Lra Lia Psatz.
From Verif Require Import Scalar Linalg Householder RayIntersection SymEigen Spec SpecIsect RealBase VecLemmas FromViewProofs QRProofs
  TriProofs SymEigenProofs SymEigenProofs2 SymEigenProofs3 SymEigenProofs4.
Import ListNotations.
Local Open Scope R_scope.

(** ** Ordering of the columns *)
Definition p01 : M33 R := mkM33 0 (-1) 0 1 0 0 0 0 1.
Definition p02 : M33 R := mkM33 0 0 (-1) 0 1 0 1 0 0.
Definition p12 : M33 R := mkM33 1 0 0 0 0 (-1) 0 1 0.
Lemma p01_orth : orthogonal p01. Proof. split; apply M33_eq; unfold p01; ru_spec; ring. Qed.
Lemma p02_orth : orthogonal p02. Proof. split; apply M33_eq; unfold p02; ru_spec; ring. Qed.
Lemma p12_orth : orthogonal p12. Proof. split; apply M33_eq; unfold p12; ru_spec; ring. Qed.
Lemma swap_01 m : swap_neg_columns m 0 1 = Some (mm m p01).
Proof. destruct m. cbv -[Rmult Rplus Ropp IZR mm p01]. f_equal. apply M33_eq; unfold p01; ru_spec; ring. Qed.
Lemma swap_02 m : swap_neg_columns m 0 2 = Some (mm m p02).
Proof. destruct m. cbv -[Rmult Rplus Ropp IZR mm p02]. f_equal. apply M33_eq; unfold p02; ru_spec; ring. Qed.
Lemma swap_12 m : swap_neg_columns m 1 2 = Some (mm m p12).
Proof. destruct m. cbv -[Rmult Rplus Ropp IZR mm p12]. f_equal. apply M33_eq; unfold p12; ru_spec; ring. Qed.
Lemma solved_perm s v p b : orthogonal p -> (forall l, exists l', mm (mm (mtr p) (tri l (mkV2 0 0))) p = tri l' (mkV2 0 0)) ->
  solved s v b -> solved s (mm v p) b.
Proof.
  intros Op H (Ov & l & A). split; [now apply orthogonal_mm|]. destruct (H l) as (l' & E). exists l'. rewrite <- E.
  rewrite <- (sim_mm v (mtr p) (tri l _)) in A by now apply orthogonal_mtr. rewrite mtr_mtr in A. exact A.
Qed.
Lemma solved_01 s v b : solved s v b -> solved s (mm v p01) b.
Proof.
  apply solved_perm; [exact p01_orth|]. intros [x y z]. exists (mkV3 y x z). unfold tri, p01. cbn [vx vy vz px py]. apply M33_eq; ru_spec; ring.
Qed.
Lemma solved_02 s v b : solved s v b -> solved s (mm v p02) b.
Proof.
  apply solved_perm; [exact p02_orth|]. intros [x y z]. exists (mkV3 z y x). unfold tri, p02. cbn [vx vy vz px py]. apply M33_eq; ru_spec; ring.
Qed.
Lemma solved_12 s v b : solved s v b -> solved s (mm v p12) b.
Proof.
  apply solved_perm; [exact p12_orth|]. intros [x y z]. exists (mkV3 x z y). unfold tri, p12. cbn [vx vy vz px py]. apply M33_eq; ru_spec; ring.
Qed.
Definition cn0 (m : M33 R) := vdot (mcol0 m) (mcol0 m).
Definition cn1 (m : M33 R) := vdot (mcol1 m) (mcol1 m).
Definition cn2 (m : M33 R) := vdot (mcol2 m) (mcol2 m).
Lemma col_norm_0 m : col_norm_squared m 0 = Some (cn0 m).
Proof. destruct m. cbv -[Rmult Rplus cn0]. f_equal; unfold cn0; ru_spec; ring. Qed.
Lemma col_norm_1 m : col_norm_squared m 1 = Some (cn1 m).
Proof. destruct m. cbv -[Rmult Rplus cn1]. f_equal; unfold cn1; ru_spec; ring. Qed.
Lemma col_norm_2 m : col_norm_squared m 2 = Some (cn2 m).
Proof. destruct m. cbv -[Rmult Rplus cn2]. f_equal; unfold cn2; ru_spec; ring. Qed.
Lemma cn_01 m : cn0 (mm m p01) = cn1 m /\ cn1 (mm m p01) = cn0 m /\ cn2 (mm m p01) = cn2 m.
Proof. destruct m. unfold cn0, cn1, cn2, p01. repeat split; ru_spec; ring. Qed.
Lemma cn_02 m : cn0 (mm m p02) = cn2 m /\ cn1 (mm m p02) = cn1 m /\ cn2 (mm m p02) = cn0 m.
Proof. destruct m. unfold cn0, cn1, cn2, p02. repeat split; ru_spec; ring. Qed.
Lemma cn_12 m : cn0 (mm m p12) = cn0 m /\ cn1 (mm m p12) = cn2 m /\ cn2 (mm m p12) = cn1 m.
Proof. destruct m. unfold cn0, cn1, cn2, p12. repeat split; ru_spec; ring. Qed.

(** one conditional exchange *)
Lemma order_01 m v s b r0 r1 r2 : solved s v b -> r0 = cn0 (mm m v) -> r1 = cn1 (mm m v) -> r2 = cn2 (mm m v) ->
  exists v', order_columns (Rltb r0 r1) 0 1 (mm m v) v = Some (mm m v', v') /\ solved s v' b /\
    let rr := if Rltb r0 r1 then (r1, r0) else (r0, r1) in
    cn0 (mm m v') = fst rr /\ cn1 (mm m v') = snd rr /\ cn2 (mm m v') = r2 /\ snd rr <= fst rr.
Proof.
  intros S -> -> ->. destruct (Rltb _ _) eqn:E; cbn [order_columns fst snd].
  - apply Rltb_true in E. rewrite !swap_01. cbn [bind]. exists (mm v p01). rewrite mm_assoc. split; [reflexivity|]. split; [now apply solved_01|].
    destruct (cn_01 (mm m v)) as (-> & -> & ->). cbv zeta. cbn [fst snd]. repeat split; lra.
  - apply Rltb_false in E. exists v. split; [reflexivity|]. split; [exact S|]. cbv zeta. cbn [fst snd]. repeat split; lra.
Qed.
Lemma order_02 m v s b r0 r1 r2 : solved s v b -> r0 = cn0 (mm m v) -> r1 = cn1 (mm m v) -> r2 = cn2 (mm m v) ->
  exists v', order_columns (Rltb r0 r2) 0 2 (mm m v) v = Some (mm m v', v') /\ solved s v' b /\
    let rr := if Rltb r0 r2 then (r2, r0) else (r0, r2) in
    cn0 (mm m v') = fst rr /\ cn1 (mm m v') = r1 /\ cn2 (mm m v') = snd rr /\ snd rr <= fst rr /\ r0 <= fst rr.
Proof.
  intros S -> -> ->. destruct (Rltb _ _) eqn:E; cbn [order_columns fst snd].
  - apply Rltb_true in E. rewrite !swap_02. cbn [bind]. exists (mm v p02). rewrite mm_assoc. split; [reflexivity|]. split; [now apply solved_02|].
    destruct (cn_02 (mm m v)) as (-> & -> & ->). cbv zeta. cbn [fst snd]. repeat split; lra.
  - apply Rltb_false in E. exists v. split; [reflexivity|]. split; [exact S|]. cbv zeta. cbn [fst snd]. repeat split; lra.
Qed.
Lemma order_12 m v s b r0 r1 r2 : solved s v b -> r0 = cn0 (mm m v) -> r1 = cn1 (mm m v) -> r2 = cn2 (mm m v) -> r1 <= r0 -> r2 <= r0 ->
  exists v', order_columns (Rltb r1 r2) 1 2 (mm m v) v = Some (mm m v', v') /\ solved s v' b /\
    cn1 (mm m v') <= cn0 (mm m v') /\ cn2 (mm m v') <= cn1 (mm m v').
Proof.
  intros S -> -> -> H1 H2. destruct (Rltb _ _) eqn:E; cbn [order_columns fst snd].
  - apply Rltb_true in E. rewrite !swap_12. cbn [bind]. exists (mm v p12). rewrite mm_assoc. split; [reflexivity|]. split; [now apply solved_12|].
    destruct (cn_12 (mm m v)) as (-> & -> & ->). lra.
  - apply Rltb_false in E. exists v. split; [reflexivity|]. split; [exact S|]. lra.
Qed.

(** ** The off-diagonal products *)
Lemma solved_off s v b e f : solved s v b -> vdot e e = 1 -> vdot f f = 1 -> (forall l, vdot e (mv (tri l (mkV2 0 0)) f) = 0) ->
  Rabs (vdot (mv v e) (mv s (mv v f))) <= b.
Proof.
  intros (Ov & l & A) E F H. specialize (A (mv v f)). unfold vdist in A.
  pose proof (cauchy (mv v e) (vsub (mv s (mv v f)) (mv (sim v (tri l (mkV2 0 0))) (mv v f)))) as C.
  rewrite vdot_vsub_r in C. unfold sim in C, A. rewrite !mv_mm, orthogonal_inv_l in C, A by exact Ov.
  rewrite (orthogonal_dot v e _ Ov), H, Rminus_0_r in C. rewrite !(orthogonal_len v) in * by exact Ov.
  rewrite (vlen_1 e E) in C. rewrite (vlen_1 f F) in A. lra.
Qed.
Lemma dot_gram m a b : vdot (mv m a) (mv m b) = vdot a (mv (mm (mtr m) m) b).
Proof. now rewrite vdot_mv, mv_mm. Qed.
Lemma cols_off m v b : solved (mm (mtr m) m) v b -> let B := mm m v in
  Rabs (vdot (mcol0 B) (mcol1 B)) <= b /\ Rabs (vdot (mcol0 B) (mcol2 B)) <= b /\ Rabs (vdot (mcol1 B) (mcol2 B)) <= b.
Proof.
  intros S B.
  assert (C0 : mcol0 B = mv m (mv v (mkV3 1 0 0))) by (unfold B; rewrite <- mv_mm; generalize (mm m v); intros []; vring).
  assert (C1 : mcol1 B = mv m (mv v (mkV3 0 1 0))) by (unfold B; rewrite <- mv_mm; generalize (mm m v); intros []; vring).
  assert (C2 : mcol2 B = mv m (mv v (mkV3 0 0 1))) by (unfold B; rewrite <- mv_mm; generalize (mm m v); intros []; vring).
  rewrite C0, C1, C2, !dot_gram. repeat split; apply solved_off; try exact S; try (vring); intros [x y z]; unfold tri; vring.
Qed.

(** ** The triangular factor *)
Lemma upper_dots q r : orthogonal q -> m10 r = 0 -> m20 r = 0 -> m21 r = 0 -> let B := mm q r in
  vdot (mcol0 B) (mcol0 B) = m00 r * m00 r /\ vdot (mcol1 B) (mcol1 B) = m01 r * m01 r + m11 r * m11 r /\
  vdot (mcol2 B) (mcol2 B) = m02 r * m02 r + m12 r * m12 r + m22 r * m22 r /\
  vdot (mcol0 B) (mcol1 B) = m00 r * m01 r /\ vdot (mcol0 B) (mcol2 B) = m00 r * m02 r /\
  vdot (mcol1 B) (mcol2 B) = m01 r * m02 r + m11 r * m12 r.
Proof.
  intros Oq Z1 Z2 Z3 B.
  assert (C0 : mcol0 B = mv q (mcol0 r)) by (unfold B; destruct q, r; vring).
  assert (C1 : mcol1 B = mv q (mcol1 r)) by (unfold B; destruct q, r; vring).
  assert (C2 : mcol2 B = mv q (mcol2 r)) by (unfold B; destruct q, r; vring).
  rewrite C0, C1, C2, !orthogonal_dot by exact Oq. clear - Z1 Z2 Z3. destruct r as [a b c d e f g h i]. cbn [m10 m20 m21] in *. subst. repeat split; ru_spec; ring.
Qed.
Lemma strict_upper_bound q r vt s : orthogonal q -> orthogonal vt -> m10 r = 0 -> m20 r = 0 -> m21 r = 0 ->
  s = mkV3 (m00 r) (m11 r) (m22 r) ->
  appr (mm (mm q (mdiag s)) vt) (mm (mm q r) vt) (Rabs (m01 r) + Rabs (m02 r) + Rabs (m12 r)).
Proof.
  intros Oq Ov Z1 Z2 Z3 -> v. unfold vdist. rewrite !mv_mm, <- mv_vsub, (orthogonal_len q) by exact Oq.
  rewrite <- (orthogonal_len vt v) by exact Ov. generalize (mv vt v). clear v. intros v.
  destruct r as [a b c d e f g h i]. cbn [m00 m01 m02 m10 m11 m12 m20 m21 m22] in *. subst d g h. clear.
  pose proof (appr_sq (mdiag (mkV3 a e i)) (mkM33 a b 0 0 e 0 0 0 i) b) as A1.
  pose proof (appr_sq (mkM33 a b 0 0 e 0 0 0 i) (mkM33 a b c 0 e 0 0 0 i) c) as A2.
  pose proof (appr_sq (mkM33 a b c 0 e 0 0 0 i) (mkM33 a b c 0 e f 0 0 i) f) as A3.
  eapply (appr_trans _ _ _ _ _ (appr_trans _ _ _ _ _ (A1 _) (A2 _)) (A3 _)).
  Unshelve.
  - intros [x y z]. pose proof (Rle_0_sqr (b * x)). pose proof (Rle_0_sqr (b * z)). unfold Rsqr in *. unfold mdiag. ru_spec. nra.
  - intros [x y z]. pose proof (Rle_0_sqr (c * x)). pose proof (Rle_0_sqr (c * y)). unfold Rsqr in *. ru_spec. nra.
  - intros [x y z]. pose proof (Rle_0_sqr (f * x)). pose proof (Rle_0_sqr (f * y)). unfold Rsqr in *. ru_spec. nra.
Qed.
(** no assumption on the matrix *)
Lemma sq_le_abs x y : x * x <= y * y -> 0 <= y -> Rabs x <= y.
Proof. intros H Y. apply Rsqr_incr_0_var; [|exact Y]. rewrite <- Rsqr_abs. exact H. Qed.
Lemma abs_le_mul x y d : 0 < y -> Rabs (y * x) <= y * d -> Rabs x <= d.
Proof. intros Y H. rewrite Rabs_mult, (Rabs_pos_eq y) in H by lra. nra. Qed.
Lemma upper_any r00 r01 r02 r11 r12 r22 t : 0 <= t -> 0 <= r00 -> 0 <= r11 ->
  Rabs (r00 * r01) <= t * t -> Rabs (r00 * r02) <= t * t -> Rabs (r01 * r02 + r11 * r12) <= t * t ->
  r01 * r01 + r11 * r11 <= r00 * r00 -> r02 * r02 + r12 * r12 + r22 * r22 <= r01 * r01 + r11 * r11 ->
  Rabs r01 + Rabs r02 + Rabs r12 <= 4 * t.
Proof.
  intros T P0 P1 H1 H2 H3 S1 S2.
  pose proof (Rle_0_sqr r01) as Q1. pose proof (Rle_0_sqr r02) as Q2. pose proof (Rle_0_sqr r12) as Q3. pose proof (Rle_0_sqr r22) as Q4. pose proof (Rle_0_sqr r11) as Q5. unfold Rsqr in *.
  assert (A : Rabs r01 <= t /\ Rabs r02 <= t).
  { destruct (Rle_lt_dec r00 t) as [L|L].
    - assert (r00 * r00 <= t * t) by nra. split; apply sq_le_abs; lra.
    - split; (apply (abs_le_mul _ r00); [lra|]; eapply Rle_trans; [eassumption|]; nra). }
  destruct A as (A1 & A2). assert (A3 : Rabs r12 <= 2 * t).
  { destruct (Rle_lt_dec r11 t) as [L|L].
    - assert (r11 * r11 <= t * t) by nra.
      assert (r01 * r01 <= t * t) by (apply Rsqr_le_abs_1; rewrite (Rabs_pos_eq t) by lra; exact A1).
      apply sq_le_abs; nra.
    - apply (abs_le_mul _ r11); [lra|].
      assert (K : Rabs (r01 * r02) <= t * t).
      { rewrite Rabs_mult. apply Rmult_le_compat; auto using Rabs_pos. }
      replace (r11 * r12) with ((r01 * r02 + r11 * r12) - r01 * r02) by ring.
      eapply Rle_trans; [apply Rabs_triang|]. rewrite Rabs_Ropp. nra. }
  lra.
Qed.
(** a matrix which shortens no vector by more than [lam] *)
Lemma upper_cond r00 r01 r02 r11 r12 lam d : 0 < lam -> 0 <= d -> 10 * d <= lam * lam -> 0 <= r00 -> 0 <= r11 ->
  Rabs (r00 * r01) <= d -> Rabs (r00 * r02) <= d -> Rabs (r01 * r02 + r11 * r12) <= d ->
  lam * lam <= r00 * r00 -> lam * lam <= r01 * r01 + r11 * r11 ->
  Rabs r01 + Rabs r02 + Rabs r12 <= 32 / 10 * (d / lam).
Proof.
  intros L D0 D P0 P1 H1 H2 H3 S0 S1. set (e := d / lam). assert (E : d = e * lam) by (unfold e; field; lra).
  assert (E0 : 0 <= e) by (unfold e; apply Rmult_le_pos; [exact D0|left; now apply Rinv_0_lt_compat]).
  clearbody e. subst d. assert (E1 : 10 * e <= lam) by nra.
  assert (L0 : lam <= r00) by nra.
  assert (A1 : Rabs r01 <= e) by (apply (abs_le_mul _ r00); [lra|]; nra).
  assert (A2 : Rabs r02 <= e) by (apply (abs_le_mul _ r00); [lra|]; nra).
  assert (Q1 : r01 * r01 <= e * e) by (apply Rsqr_le_abs_1; rewrite (Rabs_pos_eq e) by lra; exact A1).
  assert (L1 : 99 / 100 * lam <= r11) by nra.
  assert (A3 : Rabs r12 <= 12 / 10 * e).
  { apply (abs_le_mul _ r11); [lra|].
    assert (K : Rabs (r01 * r02) <= e * e).
    { rewrite Rabs_mult. apply Rmult_le_compat; auto using Rabs_pos. }
    replace (r11 * r12) with ((r01 * r02 + r11 * r12) - r01 * r02) by ring.
    eapply Rle_trans; [apply Rabs_triang|]. rewrite Rabs_Ropp. nra. }
  lra.
Qed.
