(** * FloatSvdProofs9.v - the tridiagonalization in double precision (C110) *)

From Coq Require Import ZArith Reals List Bool Lra Lia Psatz.
From Flocq Require Import Core BinarySingleNaN.
From Verif Require Import Scalar Linalg Householder RayIntersection SymEigen Spec SpecGeom SpecIsect SpecFloatErr SpecFloatIsect RealBase VecLemmas ExtrinsicsProofs IsectBase IsectProofs SpectralProofs TriProofs FloatBase FloatRound FloatErrProofs FloatApprox FloatDirProofs FloatIsectProofs4 FloatQRProofs QRProofs
  SymEigenProofs SymEigenProofs2 SymEigenProofs4 FloatSvdProofs FloatSvdProofs2 FloatSvdProofs3 FloatSvdProofs4 FloatSvdProofs5 FloatSvdProofs7 FloatSvdProofs8.
Import ListNotations.
Local Open Scope R_scope.

Section Generic.
Context {T : Type} {O : Ops T}.
Local Open Scope S_scope.
Lemma reflect1_e (a s c : T) : reflect_with_sign [a] s [c] = [((o_zero + a * c) - o_zero) * (s * o_mtwo) * a + s * c].
Proof. reflexivity. Qed.
Lemma reflect2_e (a b s c d : T) : reflect_with_sign [a; b] s [c; d]
  = [((o_zero + a * c + b * d) - o_zero) * (s * o_mtwo) * a + s * c; ((o_zero + a * c + b * d) - o_zero) * (s * o_mtwo) * b + s * d].
Proof. reflexivity. Qed.
Lemma assemble_e (x y sg z tg z0 z1 p q r t v w : T) :
  reflect_with_sign [z] tg [o_zero] = [z0] -> reflect_with_sign [z] tg [o_one] = [z1] ->
  reflect_with_sign [x; y] sg [o_zero; o_zero] = [p; q] -> reflect_with_sign [x; y] sg [o_one; z0] = [r; t] -> reflect_with_sign [x; y] sg [o_zero; z1] = [v; w] ->
  m33_of_cols (map_cols 0 (fun (j : nat) c => on_rows_from 1 (reflect_with_sign [x; y] sg) c)
    (map_cols 0 (fun (j : nat) c => if Nat.leb 1 j then on_rows_from 2 (reflect_with_sign [z] tg) c else c)
      [[o_one; o_zero; o_zero]; [o_zero; o_one; o_zero]; [o_zero; o_zero; o_one]]))
  = mkM33 o_one o_zero o_zero p r v q t w.
Proof.
  intros E1 E2 E3 E4 E5. cbn [map_cols Nat.leb]. unfold on_rows_from. cbn [firstn skipn app]. rewrite E1, E2. cbn [firstn skipn app List.app]. change ([o_zero; o_one] ++ [z0]) with [o_zero; o_one; z0]. change ([o_zero; o_zero] ++ [z1]) with [o_zero; o_zero; z1]. cbv iota. rewrite E3, E4, E5. reflexivity.
Qed.
End Generic.

Lemma sim_sim g1 g2 t : sim (mm g1 g2) t = sim g1 (sim g2 t).
Proof. unfold sim. rewrite mtr_mm, !mm_assoc. reflexivity. Qed.
Lemma sim_back g t : mtr g = g -> mm g g = mI -> sim g (mm g (mm t g)) = t.
Proof. intros S Q. unfold sim. rewrite S. rewrite (mm_assoc g g), Q, mm_I_l, <- mm_assoc, Q, mm_I_r. reflexivity. Qed.
Lemma G1_sym y z s : mtr (G1 y z s) = G1 y z s.
Proof. unfold G1. apply M33_eq; ru_spec; ring. Qed.
Lemma G2_sym z s : mtr (G2 z s) = G2 z s.
Proof. unfold G2. apply M33_eq; ru_spec; ring. Qed.
Lemma sq1_abs s : s * s = 1 -> Rabs s = 1.
Proof. intros S. assert (Rabs s * Rabs s = 1) by (rewrite <- Rabs_mult, S; apply Rabs_R1). pose proof (Rabs_pos s). nra. Qed.

Section F64.
Variables gsin gcos : binary_float 53 1024 -> binary_float 53 1024.
Local Notation F := (binary_float 53 1024).
Local Hint Extern 0 (Ops (binary_float 53 1024)) => exact (B_ops 53 1024 f64_prec f64_emax gsin gcos) : typeclass_instances.
Local Notation flr := (fl 53 1024).
Local Notation u := (bpow radix2 (- (53))).
Local Notation nbmul := (nb_mul gsin gcos).
Local Notation nbadd := (nb_add gsin gcos).
Local Notation nbsub := (nb_sub gsin gcos).

Lemma nb_zero : nb 0 0 (o_zero : F) 0.
Proof. apply nb_exact; [exact (fl_zero' 53 1024 f64_prec f64_emax gsin gcos)|rewrite Rabs_R0; lra]. Qed.
Lemma nb_one : nb 0 1 (o_one : F) 1.
Proof. apply nb_exact; [exact (fl_one' 53 1024 f64_prec f64_emax gsin gcos)|rewrite Rabs_R1; lra]. Qed.
Lemma nb_mtwo : nb 0 2 (o_mtwo : F) (- (2)).
Proof. apply nb_exact; [exact (fl_mtwo 53 1024 f64_prec f64_emax gsin gcos ltac:(lia) ltac:(lia))|rewrite Rabs_left; lra]. Qed.

Lemma refl1_f (a sg c : F) w s C : nb 8e-15 1 a w -> flr sg s -> s * s = 1 -> w * w = 1 \/ w = 0 -> nb 0 1 c C ->
  exists r, reflect_with_sign [a] sg [c] = [r] /\ nb 5e-14 1 r (s * (1 - 2 * w * w) * C).
Proof.
  intros NA FS SS WW NC. rewrite reflect1_e. eexists. split; [reflexivity|].
  pose proof (sq1_abs s SS) as SA. assert (NS : nb 0 1 sg s) by (apply nb_exact; [exact FS|lra]).
  assert (M : nb 5e-14 3 (o_add (o_mul (o_mul (o_sub (o_add o_zero (o_mul a c)) o_zero) (o_mul sg o_mtwo)) a) (o_mul sg c)) ((0 + w * C - 0) * (s * - (2)) * w + s * C)).
  { apply (nbadd 4e-14 2e-16 5e-14 2 1); try lra; [|apply (nbmul 0 0 2e-16 1 1); try lra; assumption].
    apply (nbmul 2.2e-14 8e-15 4e-14 2 1); try lra; [|exact NA]. apply (nbmul 1e-14 4e-16 2.2e-14 1 2); try lra; [|apply (nbmul 0 0 4e-16 1 2); try lra; [exact NS|apply nb_mtwo]].
    apply (nbsub 9e-15 0 1e-14 1 0); try lra; [|apply nb_zero]. apply (nbadd 0 8.3e-15 9e-15 0 1); try lra; [apply nb_zero|]. apply (nbmul 8e-15 0 8.3e-15 1 1); try lra; assumption. }
  destruct M as (M & _). split.
  - replace (s * (1 - 2 * w * w) * C) with ((0 + w * C - 0) * (s * - (2)) * w + s * C) by ring. exact M.
  - rewrite !Rabs_mult, SA. destruct NC as (_ & LC).
    assert (E : Rabs (1 - 2 * w * w) = 1). { replace (1 - 2 * w * w) with (1 - 2 * (w * w)) by ring. destruct WW as [-> | ->]; [|rewrite Rmult_0_l, Rmult_0_r, Rminus_0_r; apply Rabs_R1]. rewrite Rabs_left; lra. }
    rewrite E. lra.
Qed.
Lemma refl2_f (a b sg c d : F) w1 w2 s C D : nb 8e-15 1 a w1 -> nb 8e-15 1 b w2 -> flr sg s -> s * s = 1 -> nb 5e-14 1 c C -> nb 5e-14 1 d D ->
  exists p q, reflect_with_sign [a; b] sg [c; d] = [p; q] /\ near 1e-12 p (s * (1 - 2 * w1 * w1) * C + s * (- 2 * w1 * w2) * D) /\ near 1e-12 q (s * (- 2 * w1 * w2) * C + s * (1 - 2 * w2 * w2) * D).
Proof.
  intros NA NB FS SS NC ND. rewrite reflect2_e. do 2 eexists. split; [reflexivity|].
  pose proof (sq1_abs s SS) as SA. assert (NS : nb 0 1 sg s) by (apply nb_exact; [exact FS|lra]).
  assert (M : nb 3e-13 4 (o_mul (o_sub (o_add (o_add o_zero (o_mul a c)) (o_mul b d)) o_zero) (o_mul sg o_mtwo)) ((0 + w1 * C + w2 * D - 0) * (s * - (2)))).
  { apply (nbmul 1.3e-13 4e-16 3e-13 2 2); try lra; [|apply (nbmul 0 0 4e-16 1 2); try lra; [exact NS|apply nb_mtwo]].
    apply (nbsub 1.25e-13 0 1.3e-13 2 0); try lra; [|apply nb_zero]. apply (nbadd 6.1e-14 6e-14 1.25e-13 1 1); try lra; [|apply (nbmul 8e-15 5e-14 6e-14 1 1); try lra; assumption].
    apply (nbadd 0 6e-14 6.1e-14 0 1); try lra; [apply nb_zero|]. apply (nbmul 8e-15 5e-14 6e-14 1 1); try lra; assumption. }
  set (m := o_mul (o_sub (o_add (o_add o_zero (o_mul a c)) (o_mul b d)) o_zero) (o_mul sg o_mtwo)) in *. clearbody m.
  split.
  - apply near_of_nb with 5 ((0 + w1 * C + w2 * D - 0) * (s * - (2)) * w1 + s * C); [|ring].
    apply (nbadd 4e-13 6e-14 1e-12 4 1); try lra; [apply (nbmul 3e-13 8e-15 4e-13 4 1); try lra; assumption|apply (nbmul 0 5e-14 6e-14 1 1); try lra; assumption].
  - apply near_of_nb with 5 ((0 + w1 * C + w2 * D - 0) * (s * - (2)) * w2 + s * D); [|ring].
    apply (nbadd 4e-13 6e-14 1e-12 4 1); try lra; [apply (nbmul 3e-13 8e-15 4e-13 4 1); try lra; assumption|apply (nbmul 0 5e-14 6e-14 1 1); try lra; assumption].
Qed.

Lemma q_f (x y sg z tg : F) w1 w2 s w t : nb 8e-15 1 x w1 -> nb 8e-15 1 y w2 -> flr sg s -> s * s = 1 -> w1 * w1 + w2 * w2 = 1 \/ (w1 = 0 /\ w2 = 0) ->
  nb 8e-15 1 z w -> flr tg t -> t * t = 1 -> w * w = 1 \/ w = 0 ->
  exists q, m33_of_cols (map_cols 0 (fun (j : nat) c => on_rows_from 1 (reflect_with_sign [x; y] sg) c)
    (map_cols 0 (fun (j : nat) c => if Nat.leb 1 j then on_rows_from 2 (reflect_with_sign [z] tg) c else c)
      [[o_one; o_zero; o_zero]; [o_zero; o_one; o_zero]; [o_zero; o_zero; o_one]])) = q /\ qnear q (mm (G1 w1 w2 s) (G2 w t)) 3e-12.
Proof.
  intros NX NY FS SS W12 NZ FT TT WW.
  assert (Z1 : nb 0 1 (o_zero : F) 0) by (eapply nb_le; [apply nb_zero|lra|lra]). assert (Z2 : nb 5e-14 1 (o_zero : F) 0) by (eapply nb_le; [apply nb_zero|lra|lra]). assert (O2 : nb 5e-14 1 (o_one : F) 1) by (eapply nb_le; [apply nb_one|lra|lra]).
  destruct (refl1_f z tg o_zero w t 0 NZ FT TT WW Z1) as (z0 & E0 & N0). destruct (refl1_f z tg o_one w t 1 NZ FT TT WW nb_one) as (z1 & E1 & N1).
  destruct (refl2_f x y sg o_zero o_zero w1 w2 s 0 0 NX NY FS SS Z2 Z2) as (p & q & E2 & P1 & P2).
  destruct (refl2_f x y sg o_one z0 w1 w2 s 1 _ NX NY FS SS O2 N0) as (r & v & E3 & P3 & P4).
  destruct (refl2_f x y sg o_zero z1 w1 w2 s 0 _ NX NY FS SS Z2 N1) as (a & b & E4 & P5 & P6).
  eexists. split; [apply (assemble_e x y sg z tg z0 z1 p q r v a b E0 E1 E2 E3 E4)|].
  assert (MN : mat_near 1e-12 (mkM33 o_one o_zero o_zero p r a q v b : M33 F) (mm (G1 w1 w2 s) (G2 w t))).
  { unfold mat_near, mm, G1, G2. cbn [m00 m01 m02 m10 m11 m12 m20 m21 m22]. unfold vdot, mrow0, mrow1, mrow2, mcol0, mcol1, mcol2. cbn [vx vy vz m00 m01 m02 m10 m11 m12 m20 m21 m22].
    destruct nb_zero as (NZ0 & _). destruct nb_one as (NO & _).
    split; [|split; [|split; [|split; [|split; [|split; [|split; [|split]]]]]]];
      match goal with |- near _ ?f ?e => match goal with H : near _ f ?g |- _ => replace e with g by ring; eapply near_le; [exact H|lra] end end. }
  split; [eapply mat_near_fin; exact MN|]. split.
  - apply orthogonal_mm; apply sym_sq_orthogonal; [apply G1_sym|apply G1_sq; assumption|apply G2_sym|apply G2_sq; assumption].
  - apply mat_entries in MN. apply entries_appr in MN. eapply appr_le; [|exact MN]. lra.
Qed.

Lemma tridiagonalize_f (m : M33 F) l : mfin m -> mtr (mreal m) = mreal m -> bnd (mreal m) l -> l <= 3.1 -> entries_le 1.1 (mreal m) (mkM33 0 0 0 0 0 0 0 0 0) ->
  exists q d o, tridiagonalize m = (q, d, o) /\ vec_finite d /\ v2fin o /\ follows (mreal m) q (trif d o) 3e-12 2e-11.
Proof.
  intros FM Sy Bl Ll EN. destruct m as [fa fb' fc' fb fd fe' fc fe ff]. unfold mfin, mat_near, mreal in *. cbn [m00 m01 m02 m10 m11 m12 m20 m21 m22] in *.
  destruct FM as ((Fa & _) & _ & _ & (Fb & _) & (Fd & _) & _ & (Fc & _) & (Fe & _) & (Ff & _)).
  apply fin_fl in Fb, Fd, Fc, Fe, Ff. apply M33_inv in Sy. unfold mtr in Sy. cbn [m00 m01 m02 m10 m11 m12 m20 m21 m22] in Sy.
  destruct Sy as (_ & Sy1 & Sy2 & _ & _ & Sy3 & _). rewrite <- Sy1, <- Sy2, <- Sy3 in *. clear Sy1 Sy2 Sy3.
  unfold entries_le in EN. cbn [m00 m01 m02 m10 m11 m12 m20 m21 m22] in EN. rewrite !Rminus_0_r in EN. destruct EN as (_ & _ & _ & LB & LD & _ & LC & LE & LF).
  set (a := B2R fa) in *. set (b := B2R fb) in *. set (c := B2R fc) in *. set (d := B2R fd) in *. set (e := B2R fe) in *. set (f := B2R ff) in *.
  unfold tridiagonalize. cbn [m00 m01 m02 m10 m11 m12 m20 m21 m22].
  destruct (axis2_f gsin gcos fb fc b c Fb Fc ltac:(lra) ltac:(lra)) as (ax & ay & nrm & nz & w1 & w2 & s & n & EA & NX & NY & FS & SS & NN & CA & R1 & R2).
  rewrite EA. assert (W12 : w1 * w1 + w2 * w2 = 1 \/ (w1 = 0 /\ w2 = 0)) by tauto.
  assert (L12 : Rabs w1 <= 1 /\ Rabs w2 <= 1). { destruct W12 as [W|(-> & ->)]; [now apply unit_le|rewrite Rabs_R0; lra]. }
  destruct L12 as (L1 & L2).
  set (b11 := d - 4 * w1 * (d * w1 + e * w2) + 4 * (w1 * (d * w1 + e * w2) + w2 * (e * w1 + f * w2)) * w1 * w1).
  set (b21 := e - 2 * w1 * (e * w1 + f * w2) - 2 * w2 * (d * w1 + e * w2) + 4 * (w1 * (d * w1 + e * w2) + w2 * (e * w1 + f * w2)) * w1 * w2).
  set (b22 := f - 4 * w2 * (e * w1 + f * w2) + 4 * (w1 * (d * w1 + e * w2) + w2 * (e * w1 + f * w2)) * w2 * w2).
  assert (BL : exists p q r, (if nz then tridiag_block [ax; ay] (fd, fe, ff) else (fd, fe, ff)) = (p, q, r) /\ near 2e-12 p b11 /\ near 2e-12 q b21 /\ near 2e-12 r b22).
  { destruct CA as [(-> & _)|(-> & -> & ->)].
    - apply (block_f gsin gcos); (split; [assumption || now apply fl_near0|lra]).
    - exists fd, fe, ff. split; [reflexivity|]. split; [|split].
      + replace b11 with d by (unfold b11; ring). eapply near_le; [apply fl_near0; exact Fd|lra].
      + replace b21 with e by (unfold b21; ring). eapply near_le; [apply fl_near0; exact Fe|lra].
      + replace b22 with f by (unfold b22; ring). eapply near_le; [apply fl_near0; exact Ff|lra]. }
  destruct BL as (p & q & r & -> & Np & Nq & Nr).
  (* the exact first step *)
  pose proof (G1_sq w1 w2 s SS W12) as Q1. assert (O1 : orthogonal (G1 w1 w2 s)) by (apply sym_sq_orthogonal; [apply G1_sym|exact Q1]).
  set (r0 := s * (b - 2 * (w1 * b + w2 * c) * w1)) in *. set (r0' := s * (c - 2 * (w1 * b + w2 * c) * w2)) in *.
  assert (K1 : mm (G1 w1 w2 s) (mm (mkM33 a b c b d e c e f) (G1 w1 w2 s)) = mkM33 a r0 r0' r0 b11 b21 r0' b21 b22).
  { unfold r0, r0', b11, b21, b22. clear -SS. assert (S2 : s ^ 2 = 1) by (rewrite <- SS; ring). clearbody a b c d e f. apply M33_eq; unfold G1; ru_spec; ring [S2]. }
  pose proof (sim_back _ (mkM33 a b c b d e c e f) (G1_sym w1 w2 s) Q1) as SB. rewrite K1 in SB.
  pose proof (bnd_sim _ _ _ l O1 (eq_sym SB) Bl) as BK. apply bnd_entries in BK. unfold entries_le in BK. cbn [m00 m01 m02 m10 m11 m12 m20 m21 m22] in BK. rewrite !Rminus_0_r in BK.
  destruct BK as (_ & _ & _ & _ & BK11 & _ & _ & BK21 & BK22).
  pose proof Np as (Fp & Dp). pose proof Nq as (Fq & Dq). pose proof Nr as (Fr & Dr).
  set (P := B2R p) in *. set (Q := B2R q) in *. set (Rr := B2R r) in *.
  pose proof (abs_le_near Q b21 _ _ Dq BK21) as LQ. pose proof (abs_le_near Rr b22 _ _ Dr BK22) as LR.
  destruct (axis1_f gsin gcos q Q (fin_fl _ Fq) ltac:(lra)) as (az & nrm1 & nz1 & w & t & n1 & EZ & NZ & FT & TT & NN1 & CZ & R3).
  rewrite EZ. assert (WW : w * w = 1 \/ w = 0) by tauto. assert (Lw : Rabs w <= 1). { destruct WW as [W|W]; [apply (unit_le w 0); lra|rewrite W, Rabs_R0; lra]. }
  assert (LA : exists r', (if nz1 then tridiag_last [az] r else r) = r' /\ near 2e-12 r' ((1 - 2 * w * w) * (1 - 2 * w * w) * Rr)).
  { eexists. split; [reflexivity|]. destruct CZ as [(-> & _)|(-> & ->)].
    - apply (last_f gsin gcos); (split; [assumption || now apply near_exact|lra]).
    - replace ((1 - 2 * 0 * 0) * (1 - 2 * 0 * 0) * Rr) with Rr by ring. eapply near_le; [now apply near_exact|lra]. }
  destruct LA as (r' & -> & Nr').
  destruct (q_f ax ay (o_signum nrm) az (o_signum nrm1) w1 w2 s w t) as (qm & EQ & QN); [split; assumption|split; assumption|assumption|assumption|assumption|split; assumption|assumption|assumption|assumption|].
  rewrite EQ. clear EQ. do 3 eexists. split; [reflexivity|].
  pose proof NN as (FN & DN). pose proof NN1 as (FN1 & DN1). pose proof Nr' as (Fr' & Dr').
  split; [split; [exact Fa|split; [exact Fp|exact Fr']]|]. split; [split; [exact FN|exact FN1]|].
  unfold trif, vreal, v2real. cbn [vx vy vz px py]. fold a P. set (N := B2R (o_abs nrm)) in *. set (N1 := B2R (o_abs nrm1)) in *. set (R' := B2R r') in *. clearbody N N1 R' P Q Rr b11 b21 b22 r0 r0' a b c d e f.
  exists (mm (G1 w1 w2 s) (G2 w t)). split; [exact QN|]. rewrite sim_sim.
  assert (A1 : appr (mkM33 a b c b d e c e f) (sim (G1 w1 w2 s) (mkM33 a N 0 N P Q 0 Q Rr)) (3 * 2.1e-12)).
  { rewrite <- SB. apply appr_sim; [exact O1|]. apply entries_appr. unfold entries_le. cbn [m00 m01 m02 m10 m11 m12 m20 m21 m22].
    rewrite Rminus_eq_0, Rabs_R0, !Rminus_0_r, (Rabs_minus_sym b11), (Rabs_minus_sym b21), (Rabs_minus_sym b22).
    assert (Rabs (r0 - N) <= 2.1e-12). { replace (r0 - N) with ((r0 - n) - (N - n)) by ring. eapply Rle_trans; [apply (abs_sub_le _ _ 1e-14 1e-14); assumption|lra]. }
    repeat split; lra. }
  pose proof (G2_sq w t TT WW) as Q2. assert (O2 : orthogonal (G2 w t)) by (apply sym_sq_orthogonal; [apply G2_sym|exact Q2]).
  assert (K2 : mm (G2 w t) (mm (mkM33 a N 0 N P Q 0 Q Rr) (G2 w t)) = mkM33 a N 0 N P (t * (Q - 2 * (w * Q) * w)) 0 (t * (Q - 2 * (w * Q) * w)) ((1 - 2 * w * w) * (1 - 2 * w * w) * Rr)).
  { clear -TT. assert (S2 : t ^ 2 = 1) by (rewrite <- TT; ring). apply M33_eq; unfold G2; ru_spec; ring [S2]. }
  pose proof (sim_back _ (mkM33 a N 0 N P Q 0 Q Rr) (G2_sym w t) Q2) as SB2. rewrite K2 in SB2.
  assert (A2 : appr (mkM33 a N 0 N P Q 0 Q Rr) (sim (G2 w t) (tri (mkV3 a P R') (mkV2 N N1))) (3 * 2.1e-12)).
  { rewrite <- SB2 at 1. apply appr_sim; [exact O2|]. apply entries_appr. unfold tri, entries_le. cbn [m00 m01 m02 m10 m11 m12 m20 m21 m22 vx vy vz px py].
    rewrite !Rminus_eq_0, !Rabs_R0, (Rabs_minus_sym _ R').
    assert (Rabs (t * (Q - 2 * (w * Q) * w) - N1) <= 2.1e-12). { replace (t * (Q - 2 * (w * Q) * w) - N1) with ((t * (Q - 2 * (w * Q) * w) - n1) - (N1 - n1)) by ring. eapply Rle_trans; [apply (abs_sub_le _ _ 1e-14 1e-14); assumption|lra]. }
    repeat split; lra. }
  eapply appr_le; [|eapply appr_trans; [exact A1|apply appr_sim; [exact O1|exact A2]]]. lra.
Qed.
End F64.
