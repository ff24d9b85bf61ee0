(** * FloatSvdProofs2.v - rounding errors of one step of the QR iteration (C110) *)

From Coq Require Import ZArith Reals List Bool Lra Lia Psatz.
From Flocq Require Import Core BinarySingleNaN.
From Verif Require FloatViewProofs.
From Verif Require Import Scalar Linalg Householder RayIntersection SymEigen Spec SpecGeom SpecIsect SpecFloatErr SpecFloatIsect RealBase VecLemmas ExtrinsicsProofs IsectBase IsectProofs SpectralProofs TriProofs FloatBase FloatRound FloatErrProofs FloatApprox FloatDirProofs FloatIsectProofs4 FloatQRProofs QRProofs
  SymEigenProofs SymEigenProofs2 SymEigenProofs4 FloatSvdProofs.
Import ListNotations.
Local Open Scope R_scope.

(** ** Distances of matrices *)
Definition entries_le (e : R) (a b : M33 R) : Prop :=
  Rabs (m00 a - m00 b) <= e /\ Rabs (m01 a - m01 b) <= e /\ Rabs (m02 a - m02 b) <= e /\
  Rabs (m10 a - m10 b) <= e /\ Rabs (m11 a - m11 b) <= e /\ Rabs (m12 a - m12 b) <= e /\
  Rabs (m20 a - m20 b) <= e /\ Rabs (m21 a - m21 b) <= e /\ Rabs (m22 a - m22 b) <= e.
Lemma row_le a b c x y z e : Rabs a <= e -> Rabs b <= e -> Rabs c <= e -> (a * x + b * y + c * z) * (a * x + b * y + c * z) <= 3 * (e * e) * (x * x + y * y + z * z).
Proof.
  intros A B C. assert (AA : a * a <= e * e) by (rewrite <- (Rabs_pos_eq (a * a)), Rabs_mult by nra; apply Rmult_le_compat; try apply Rabs_pos; assumption).
  assert (BB : b * b <= e * e) by (rewrite <- (Rabs_pos_eq (b * b)), Rabs_mult by nra; apply Rmult_le_compat; try apply Rabs_pos; assumption).
  assert (CC : c * c <= e * e) by (rewrite <- (Rabs_pos_eq (c * c)), Rabs_mult by nra; apply Rmult_le_compat; try apply Rabs_pos; assumption).
  pose proof (Rle_0_sqr (a * y - b * x)) as Q1. pose proof (Rle_0_sqr (a * z - c * x)) as Q2. pose proof (Rle_0_sqr (b * z - c * y)) as Q3. unfold Rsqr in *.
  apply Rle_trans with ((a * a + b * b + c * c) * (x * x + y * y + z * z)); [lra|].
  apply Rmult_le_compat_r; [nra|lra].
Qed.
Lemma entries_appr e a b : entries_le e a b -> appr a b (3 * e).
Proof.
  intros (A1 & A2 & A3 & A4 & A5 & A6 & A7 & A8 & A9). assert (E0 : 0 <= e) by (pose proof (Rabs_pos (m00 a - m00 b)); lra).
  rewrite <- (Rabs_pos_eq (3 * e)) by lra. apply appr_sq. intros [x y z].
  pose proof (row_le _ _ _ x y z e A1 A2 A3) as R1. pose proof (row_le _ _ _ x y z e A4 A5 A6) as R2. pose proof (row_le _ _ _ x y z e A7 A8 A9) as R3.
  destruct a as [a0 a1 a2 a3 a4 a5 a6 a7 a8], b as [b0 b1 b2 b3 b4 b5 b6 b7 b8]. cbn [m00 m01 m02 m10 m11 m12 m20 m21 m22] in *. ru_spec. lra.
Qed.
Lemma appr_sym a b e : appr a b e -> appr b a e.
Proof. intros A v. specialize (A v). rewrite FloatViewProofs.vdist_sym. exact A. Qed.
Lemma appr_mm_r a b g e : orthogonal g -> appr a b e -> appr (mm a g) (mm b g) e.
Proof. intros O A v. rewrite !mv_mm. specialize (A (mv g v)). rewrite orthogonal_len in A by exact O. exact A. Qed.
Lemma col_entry_le t l : bnd t l -> forall i j, i = mkV3 1 0 0 \/ i = mkV3 0 1 0 \/ i = mkV3 0 0 1 -> j = mkV3 1 0 0 \/ j = mkV3 0 1 0 \/ j = mkV3 0 0 1 -> Rabs (vdot i (mv t j)) <= l.
Proof.
  intros B i j I J. assert (LI : vlen i = 1) by (destruct I as [->|[->| ->]]; apply vlen_1; vring). assert (LJ : vlen j = 1) by (destruct J as [->|[->| ->]]; apply vlen_1; vring).
  pose proof (cauchy i (mv t j)) as C. specialize (B j). rewrite LI in C. rewrite LJ in B. lra.
Qed.
Lemma bnd_entries t l : bnd t l -> entries_le l t (mkM33 0 0 0 0 0 0 0 0 0).
Proof.
  intros B. pose proof (col_entry_le t l B) as K. destruct t as [a b c d e f g h i].
  pose proof (K (mkV3 1 0 0) (mkV3 1 0 0) ltac:(auto) ltac:(auto)) as K1. pose proof (K (mkV3 1 0 0) (mkV3 0 1 0) ltac:(auto) ltac:(auto)) as K2. pose proof (K (mkV3 1 0 0) (mkV3 0 0 1) ltac:(auto) ltac:(auto)) as K3.
  pose proof (K (mkV3 0 1 0) (mkV3 1 0 0) ltac:(auto) ltac:(auto)) as K4. pose proof (K (mkV3 0 1 0) (mkV3 0 1 0) ltac:(auto) ltac:(auto)) as K5. pose proof (K (mkV3 0 1 0) (mkV3 0 0 1) ltac:(auto) ltac:(auto)) as K6.
  pose proof (K (mkV3 0 0 1) (mkV3 1 0 0) ltac:(auto) ltac:(auto)) as K7. pose proof (K (mkV3 0 0 1) (mkV3 0 1 0) ltac:(auto) ltac:(auto)) as K8. pose proof (K (mkV3 0 0 1) (mkV3 0 0 1) ltac:(auto) ltac:(auto)) as K9. clear K B.
  ru_spec. unfold entries_le. cbn [m00 m01 m02 m10 m11 m12 m20 m21 m22]. rewrite !Rminus_0_r.
  repeat split; match goal with |- Rabs ?x <= _ => match goal with K : Rabs ?y <= _ |- _ => replace y with x in K by ring; exact K end end.
Qed.
Lemma bnd_appr a b l e : bnd a l -> appr a b e -> bnd b (l + e).
Proof.
  intros B A v. specialize (B v). specialize (A v). unfold vdist in A.
  replace (mv b v) with (vsub (mv a v) (vsub (mv a v) (mv b v))) by (generalize (mv a v) (mv b v); intros; vring).
  replace (vsub (mv a v) (vsub (mv a v) (mv b v))) with (vadd (mv a v) (vscl (-1) (vsub (mv a v) (mv b v)))) by (generalize (mv a v) (mv b v); intros; vring).
  eapply Rle_trans; [apply vlen_triangle|]. rewrite vlen_vscl, Rabs_left by lra. lra.
Qed.
(** the middle factor of a decomposition is bounded like the matrix *)
Lemma middle_bnd s q t l e : orthogonal q -> bnd s l -> appr s (sim q t) e -> bnd t (l + e).
Proof. intros O B A. apply (bnd_sim (sim q t) q t _ O eq_refl). now apply (bnd_appr s). Qed.
Lemma orth_entries q : orthogonal q -> entries_le 1 q (mkM33 0 0 0 0 0 0 0 0 0).
Proof. intros O. apply bnd_entries. intros v. rewrite orthogonal_len by exact O. lra. Qed.
Lemma orth_bnd q : orthogonal q -> bnd q 1.
Proof. intros O v. rewrite orthogonal_len by exact O. lra. Qed.

Section Explicit.
Context {T : Type} {O : Ops T}.
Local Open Scope S_scope.
Lemma rotate_rows_e0 (c s a0 a1 a2 a3 a4 a5 a6 a7 a8 : T) : rotate_rows c s 0 (mkM33 a0 a1 a2 a3 a4 a5 a6 a7 a8)
  = Some (mkM33 (a0 * c + s * a1) ((- s) * a0 + a1 * c) a2 (a3 * c + s * a4) ((- s) * a3 + a4 * c) a5 (a6 * c + s * a7) ((- s) * a6 + a7 * c) a8).
Proof. reflexivity. Qed.
Lemma rotate_rows_e1 (c s a0 a1 a2 a3 a4 a5 a6 a7 a8 : T) : rotate_rows c s 1 (mkM33 a0 a1 a2 a3 a4 a5 a6 a7 a8)
  = Some (mkM33 a0 (a1 * c + s * a2) ((- s) * a1 + a2 * c) a3 (a4 * c + s * a5) ((- s) * a4 + a5 * c) a6 (a7 * c + s * a8) ((- s) * a7 + a8 * c)).
Proof. reflexivity. Qed.
End Explicit.

Section F64.
Variables gsin gcos : binary_float 53 1024 -> binary_float 53 1024.
Local Notation F := (binary_float 53 1024).
Local Hint Extern 0 (Ops (binary_float 53 1024)) => exact (B_ops 53 1024 f64_prec f64_emax gsin gcos) : typeclass_instances.
Local Notation flr := (fl 53 1024).
Local Notation nmul := (near_mul gsin gcos).
Local Notation nadd := (near_add gsin gcos).
Local Notation nsub := (near_sub gsin gcos).

Definition mfin (m : M33 F) : Prop := mat_near 0 m (mreal m).
Lemma mat_entries e (m : M33 F) w : mat_near e m w -> entries_le e (mreal m) w.
Proof. intros (A1 & A2 & A3 & A4 & A5 & A6 & A7 & A8 & A9). unfold entries_le, mreal. cbn [m00 m01 m02 m10 m11 m12 m20 m21 m22]. repeat split; (apply A1 || apply A2 || apply A3 || apply A4 || apply A5 || apply A6 || apply A7 || apply A8 || apply A9). Qed.
Lemma near_fin e (x : F) a : near e x a -> near 0 x (B2R x).
Proof. intros (A & _). now apply near_exact. Qed.
Lemma mat_near_fin e (m : M33 F) w : mat_near e m w -> mfin m.
Proof. intros (A1 & A2 & A3 & A4 & A5 & A6 & A7 & A8 & A9). unfold mfin, mat_near, mreal. cbn [m00 m01 m02 m10 m11 m12 m20 m21 m22]. repeat split; try (rewrite Rminus_eq_0, Rabs_R0; lra); (apply A1 || apply A2 || apply A3 || apply A4 || apply A5 || apply A6 || apply A7 || apply A8 || apply A9). Qed.

(** ** Rotating two columns *)
Lemma lin_f (a b c s : F) C S : near 0 a (B2R a) -> near 0 b (B2R b) -> Rabs (B2R a) <= 2 -> Rabs (B2R b) <= 2 -> near 6e-16 c C -> near 6e-16 s S -> Rabs C <= 1 -> Rabs S <= 1 ->
  near 4e-15 (o_add (o_mul a c) (o_mul s b)) (B2R a * C + S * B2R b).
Proof.
  intros A B LA LB NC NS LC LS.
  assert (P1 : near 1.5e-15 (o_mul a c) (B2R a * C)) by (apply (nmul 0 6e-16 _ 2 1 2.01 a c _ _ A NC LA LC); lra).
  assert (P2 : near 1.5e-15 (o_mul s b) (S * B2R b)) by (apply (nmul 6e-16 0 _ 1 2 2.01 s b _ _ NS B LS LB); lra).
  apply (nadd 1.5e-15 1.5e-15 _ 4.01 _ _ _ _ P1 P2); [|lra|lra].
  assert (Rabs (B2R a * C + S * B2R b) <= 4); [|lra]. eapply Rle_trans; [apply Rabs_triang|]. rewrite !Rabs_mult. pose proof (Rabs_pos C). pose proof (Rabs_pos S). pose proof (Rabs_pos (B2R a)). pose proof (Rabs_pos (B2R b)). nra.
Qed.
Lemma lin_f' (a b c s : F) C S : near 0 a (B2R a) -> near 0 b (B2R b) -> Rabs (B2R a) <= 2 -> Rabs (B2R b) <= 2 -> near 6e-16 c C -> near 6e-16 s S -> Rabs C <= 1 -> Rabs S <= 1 ->
  near 4e-15 (o_add (o_mul (o_neg s) a) (o_mul b c)) (- S * B2R a + B2R b * C).
Proof.
  intros A B LA LB NC NS LC LS. apply (near_neg gsin gcos) in NS. rewrite <- (Rabs_Ropp S) in LS.
  assert (P1 : near 1.5e-15 (o_mul b c) (B2R b * C)) by (apply (nmul 0 6e-16 _ 2 1 2.01 b c _ _ B NC LB LC); lra).
  assert (P2 : near 1.5e-15 (o_mul (o_neg s) a) (- S * B2R a)) by (apply (nmul 6e-16 0 _ 1 2 2.01 _ a _ _ NS A LS LA); lra).
  apply (nadd 1.5e-15 1.5e-15 _ 4.01 _ _ _ _ P2 P1); [|lra|lra].
  assert (Rabs (- S * B2R a + B2R b * C) <= 4); [|lra]. eapply Rle_trans; [apply Rabs_triang|]. rewrite !Rabs_mult. pose proof (Rabs_pos C). pose proof (Rabs_pos (- S)). pose proof (Rabs_pos (B2R a)). pose proof (Rabs_pos (B2R b)). nra.
Qed.
Lemma near_same e (x : F) a b : near e x a -> a = b -> near e x b.
Proof. intros H <-. exact H. Qed.
Lemma rotate_f0 (c s : F) C S q : mfin q -> entries_le 2 (mreal q) (mkM33 0 0 0 0 0 0 0 0 0) -> near 6e-16 c C -> near 6e-16 s S -> Rabs C <= 1 -> Rabs S <= 1 ->
  exists q', rotate_rows c s 0 q = Some q' /\ mat_near 4e-15 q' (mm (mreal q) (rot01 C S)).
Proof.
  intros M (B1 & B2 & B3 & B4 & B5 & B6 & B7 & B8 & B9) NC NS LC LS. destruct M as (A1 & A2 & A3 & A4 & A5 & A6 & A7 & A8 & A9). destruct q as [q0 q1 q2 q3 q4 q5 q6 q7 q8].
  unfold mreal in *. cbn [m00 m01 m02 m10 m11 m12 m20 m21 m22] in *. rewrite Rminus_0_r in B1, B2, B3, B4, B5, B6, B7, B8, B9.
  rewrite rotate_rows_e0. eexists. split; [reflexivity|]. unfold mat_near, rot01, mm, vdot, mrow0, mrow1, mrow2, mcol0, mcol1, mcol2. cbn [m00 m01 m02 m10 m11 m12 m20 m21 m22 vx vy vz].
  split; [eapply near_same; [apply lin_f; eassumption|ring]|]. split; [eapply near_same; [apply lin_f'; eassumption|ring]|].
  split; [eapply near_same; [apply (near_weak 53 1024 0); [exact A3|lra]|ring]|].
  split; [eapply near_same; [apply lin_f; eassumption|ring]|]. split; [eapply near_same; [apply lin_f'; eassumption|ring]|].
  split; [eapply near_same; [apply (near_weak 53 1024 0); [exact A6|lra]|ring]|].
  split; [eapply near_same; [apply lin_f; eassumption|ring]|]. split; [eapply near_same; [apply lin_f'; eassumption|ring]|].
  eapply near_same; [apply (near_weak 53 1024 0); [exact A9|lra]|ring].
Qed.
Lemma rotate_f1 (c s : F) C S q : mfin q -> entries_le 2 (mreal q) (mkM33 0 0 0 0 0 0 0 0 0) -> near 6e-16 c C -> near 6e-16 s S -> Rabs C <= 1 -> Rabs S <= 1 ->
  exists q', rotate_rows c s 1 q = Some q' /\ mat_near 4e-15 q' (mm (mreal q) (rot12 C S)).
Proof.
  intros M (B1 & B2 & B3 & B4 & B5 & B6 & B7 & B8 & B9) NC NS LC LS. destruct M as (A1 & A2 & A3 & A4 & A5 & A6 & A7 & A8 & A9). destruct q as [q0 q1 q2 q3 q4 q5 q6 q7 q8].
  unfold mreal in *. cbn [m00 m01 m02 m10 m11 m12 m20 m21 m22] in *. rewrite Rminus_0_r in B1, B2, B3, B4, B5, B6, B7, B8, B9.
  rewrite rotate_rows_e1. eexists. split; [reflexivity|]. unfold mat_near, rot12, mm, vdot, mrow0, mrow1, mrow2, mcol0, mcol1, mcol2. cbn [m00 m01 m02 m10 m11 m12 m20 m21 m22 vx vy vz].
  split; [eapply near_same; [apply (near_weak 53 1024 0); [exact A1|lra]|ring]|].
  split; [eapply near_same; [apply lin_f; eassumption|ring]|]. split; [eapply near_same; [apply lin_f'; eassumption|ring]|].
  split; [eapply near_same; [apply (near_weak 53 1024 0); [exact A4|lra]|ring]|].
  split; [eapply near_same; [apply lin_f; eassumption|ring]|]. split; [eapply near_same; [apply lin_f'; eassumption|ring]|].
  split; [eapply near_same; [apply (near_weak 53 1024 0); [exact A7|lra]|ring]|].
  split; [eapply near_same; [apply lin_f; eassumption|ring]|]. eapply near_same; [apply lin_f'; eassumption|ring].
Qed.
(** the accumulated rotations stay near orthogonal ones *)
Definition qnear (q : M33 F) (Q : M33 R) (a : R) : Prop := mfin q /\ orthogonal Q /\ appr (mreal q) Q a.
Lemma qnear_entries q Q a : qnear q Q a -> a <= 1 -> entries_le 2 (mreal q) (mkM33 0 0 0 0 0 0 0 0 0).
Proof.
  intros (_ & O & A) L. pose proof (bnd_appr Q (mreal q) 1 a (orth_bnd Q O) (appr_sym _ _ _ A)) as B.
  apply bnd_entries in B. unfold entries_le in *. lra.
Qed.
Lemma qnear_0 (c s : F) C S q Q a : qnear q Q a -> a <= 1 -> near 6e-16 c C -> near 6e-16 s S -> C * C + S * S = 1 -> Rabs C <= 1 -> Rabs S <= 1 ->
  exists q', rotate_rows c s 0 q = Some q' /\ qnear q' (mm Q (rot01 C S)) (a + 1.2e-14).
Proof.
  intros QN L NC NS CS LC LS. pose proof QN as (M & O & A). destruct (rotate_f0 c s C S q M (qnear_entries q Q a QN L) NC NS LC LS) as (q' & E & N).
  exists q'. split; [exact E|]. pose proof (rot01_orth C S CS) as OG. split; [eapply mat_near_fin; exact N|]. split; [now apply orthogonal_mm|].
  apply mat_entries, entries_appr in N. eapply appr_le; [|eapply appr_trans; [exact N|now apply appr_mm_r; [|exact A]]]. lra.
Qed.
Lemma qnear_1 (c s : F) C S q Q a : qnear q Q a -> a <= 1 -> near 6e-16 c C -> near 6e-16 s S -> C * C + S * S = 1 -> Rabs C <= 1 -> Rabs S <= 1 ->
  exists q', rotate_rows c s 1 q = Some q' /\ qnear q' (mm Q (rot12 C S)) (a + 1.2e-14).
Proof.
  intros QN L NC NS CS LC LS. pose proof QN as (M & O & A). destruct (rotate_f1 c s C S q M (qnear_entries q Q a QN L) NC NS LC LS) as (q' & E & N).
  exists q'. split; [exact E|]. pose proof (rot12_orth C S CS) as OG. split; [eapply mat_near_fin; exact N|]. split; [now apply orthogonal_mm|].
  apply mat_entries, entries_appr in N. eapply appr_le; [|eapply appr_trans; [exact N|now apply appr_mm_r; [|exact A]]]. lra.
Qed.

(** ** The new entries after a rotation *)
Lemma half_cs C S : C * C + S * S = 1 -> Rabs (C * S) <= 0.5 /\ 0 <= C * C <= 1 /\ 0 <= S * S <= 1.
Proof. intros H. pose proof (Rle_0_sqr (C - S)) as A. pose proof (Rle_0_sqr (C + S)) as B. pose proof (Rle_0_sqr C). pose proof (Rle_0_sqr S). unfold Rsqr in *. split; [apply Rabs_le; lra|lra]. Qed.
Lemma giv_f (c s mii mjj mij : F) C S : near 6e-16 c C -> near 6e-16 s S -> C * C + S * S = 1 -> Rabs C <= 1 -> Rabs S <= 1 ->
  near 0 mii (B2R mii) -> near 0 mjj (B2R mjj) -> near 0 mij (B2R mij) -> Rabs (B2R mii) <= 4 -> Rabs (B2R mjj) <= 4 -> Rabs (B2R mij) <= 4 ->
  let b := o_mul (o_mul (o_mul c s) o_two) mij in
  near 3e-14 (o_sub (o_add (o_mul (o_mul c c) mii) (o_mul (o_mul s s) mjj)) b) (C * C * B2R mii + S * S * B2R mjj - C * S * 2 * B2R mij) /\
  near 3e-14 (o_add (o_add (o_mul (o_mul s s) mii) (o_mul (o_mul c c) mjj)) b) (S * S * B2R mii + C * C * B2R mjj + C * S * 2 * B2R mij) /\
  near 3e-14 (o_add (o_mul (o_mul c s) (o_sub mii mjj)) (o_mul mij (o_sub (o_mul c c) (o_mul s s)))) (C * S * (B2R mii - B2R mjj) + B2R mij * (C * C - S * S)).
Proof.
  intros NC NS CS LC LS Ni Nj Nij Li Lj Lij b. destruct (half_cs C S CS) as (HCS & HCC & HSS).
  assert (CC : near 1.4e-15 (o_mul c c) (C * C)) by (apply (nmul 6e-16 6e-16 _ 1 1 1.01 _ _ _ _ NC NC LC LC); lra).
  assert (SS : near 1.4e-15 (o_mul s s) (S * S)) by (apply (nmul 6e-16 6e-16 _ 1 1 1.01 _ _ _ _ NS NS LS LS); lra).
  assert (CSn : near 1.4e-15 (o_mul c s) (C * S)) by (apply (nmul 6e-16 6e-16 _ 1 1 1.01 _ _ _ _ NC NS LC LS); lra).
  assert (LCC : Rabs (C * C) <= 1) by (rewrite Rabs_pos_eq; lra). assert (LSS : Rabs (S * S) <= 1) by (rewrite Rabs_pos_eq; lra).
  assert (L2 : Rabs (C * S * 2) <= 1) by (rewrite Rabs_mult, (Rabs_pos_eq 2) by lra; lra).
  assert (C2 : near 3e-15 (o_mul (o_mul c s) o_two) (C * S * 2)) by (apply (nmul 1.4e-15 0 _ 0.5 2 1.01 _ _ _ _ CSn (near_two gsin gcos) HCS); rewrite ?(Rabs_pos_eq 2) by lra; lra).
  assert (Bn : near 1.3e-14 b (C * S * 2 * B2R mij)) by (apply (nmul 3e-15 0 _ 1 4 4.01 _ _ _ _ C2 Nij L2 Lij); lra).
  assert (LB : Rabs (C * S * 2 * B2R mij) <= 4) by (rewrite Rabs_mult; pose proof (Rabs_pos (C * S * 2)); pose proof (Rabs_pos (B2R mij)); nra).
  assert (K : forall (w : F) (W : R) (m : F), near 1.4e-15 w W -> Rabs W <= 1 -> near 0 m (B2R m) -> Rabs (B2R m) <= 4 -> near 6.2e-15 (o_mul w m) (W * B2R m)).
  { intros w W m Nw Lw Nm Lm. apply (nmul 1.4e-15 0 _ 1 4 4.01 _ _ _ _ Nw Nm Lw Lm); lra. }
  assert (CV : forall p q x y, 0 <= p -> 0 <= q -> p + q = 1 -> Rabs x <= 4 -> Rabs y <= 4 -> Rabs (p * x + q * y) <= 4).
  { intros p q x y P Q PQ X Y. apply Rabs_le_inv in X. apply Rabs_le_inv in Y. apply Rabs_le. split; nra. }
  split; [|split].
  - pose proof (CV (C * C) (S * S) _ _ ltac:(lra) ltac:(lra) CS Li Lj) as L.
    assert (SM : near 1.3e-14 (o_add (o_mul (o_mul c c) mii) (o_mul (o_mul s s) mjj)) (C * C * B2R mii + S * S * B2R mjj)).
    { apply (nadd 6.2e-15 6.2e-15 _ 4.01 _ _ _ _ (K _ _ _ CC LCC Ni Li) (K _ _ _ SS LSS Nj Lj)); lra. }
    apply (nsub 1.3e-14 1.3e-14 _ 8.01 _ _ _ _ SM Bn); [|lra|lra].
    unfold Rminus at 1. pose proof (Rabs_triang (C * C * B2R mii + S * S * B2R mjj) (- (C * S * 2 * B2R mij))) as TR. rewrite Rabs_Ropp in TR. lra.
  - pose proof (CV (S * S) (C * C) _ _ ltac:(lra) ltac:(lra) ltac:(lra) Li Lj) as L.
    assert (SM : near 1.3e-14 (o_add (o_mul (o_mul s s) mii) (o_mul (o_mul c c) mjj)) (S * S * B2R mii + C * C * B2R mjj)).
    { apply (nadd 6.2e-15 6.2e-15 _ 4.01 _ _ _ _ (K _ _ _ SS LSS Ni Li) (K _ _ _ CC LCC Nj Lj)); lra. }
    apply (nadd 1.3e-14 1.3e-14 _ 8.01 _ _ _ _ SM Bn); [|lra|lra].
    pose proof (Rabs_triang (S * S * B2R mii + C * C * B2R mjj) (C * S * 2 * B2R mij)) as TR. lra.
  - assert (LD : Rabs (B2R mii - B2R mjj) <= 8) by (apply Rabs_le_inv in Li; apply Rabs_le_inv in Lj; apply Rabs_le; lra).
    assert (D : near 1e-15 (o_sub mii mjj) (B2R mii - B2R mjj)) by (apply (nsub 0 0 _ 8.01 _ _ _ _ Ni Nj); lra).
    assert (P1 : near 1.25e-14 (o_mul (o_mul c s) (o_sub mii mjj)) (C * S * (B2R mii - B2R mjj))) by (apply (nmul 1.4e-15 1e-15 _ 0.5 8 4.01 _ _ _ _ CSn D HCS LD); lra).
    assert (LDD : Rabs (C * C - S * S) <= 1) by (apply Rabs_le; lra).
    assert (DD : near 3e-15 (o_sub (o_mul c c) (o_mul s s)) (C * C - S * S)) by (apply (nsub 1.4e-15 1.4e-15 _ 1.01 _ _ _ _ CC SS); lra).
    assert (P2 : near 1.3e-14 (o_mul mij (o_sub (o_mul c c) (o_mul s s))) (B2R mij * (C * C - S * S))) by (apply (nmul 0 3e-15 _ 4 1 4.01 _ _ _ _ Nij DD Lij LDD); lra).
    apply (nadd 1.25e-14 1.3e-14 _ 8.01 _ _ _ _ P1 P2); [|lra|lra].
    eapply Rle_trans; [apply Rplus_le_compat_r, Rplus_le_compat_r, Rabs_triang|]. rewrite !Rabs_mult in *. pose proof (Rabs_pos C). pose proof (Rabs_pos S). pose proof (Rabs_pos (B2R mij)). pose proof (Rabs_pos (B2R mii - B2R mjj)). pose proof (Rabs_pos (C * C - S * S)).
    assert (Rabs C * Rabs S * Rabs (B2R mii - B2R mjj) <= 0.5 * 8) by (apply Rmult_le_compat; nra). nra.
Qed.
End F64.
