(** * FloatSvdProofs20.v - the QR iteration converges in double precision (C113) *)

From Coq Require Import ZArith Reals List Bool Lra Lia Psatz.
From Flocq Require Import Core BinarySingleNaN.
From Verif Require Import Scalar Linalg Householder RayIntersection SymEigen Spec SpecGeom SpecIsect SpecFloatErr SpecFloatIsect RealBase VecLemmas ExtrinsicsProofs IsectBase IsectProofs SpectralProofs TriProofs FloatBase FloatRound FloatErrProofs FloatApprox FloatDirProofs FloatIsectProofs4 FloatQRProofs QRProofs
  SymEigenProofs SymEigenProofs2 SymEigenProofs4 FloatSvdProofs FloatSvdProofs2 FloatSvdProofs3 FloatSvdProofs4 FloatSvdProofs5 FloatSvdProofs6 FloatSvdProofs11 FloatSvdProofs12 FloatSvdProofs17 FloatSvdProofs18 FloatSvdProofs19.
Import ListNotations.
Local Open Scope R_scope.

Definition tr3 (m : M33 R) : R := m00 m + m11 m + m22 m.
Lemma tr3_comm a b : tr3 (mm a b) = tr3 (mm b a).
Proof. destruct a, b. unfold tr3. ru_spec. ring. Qed.
Lemma tr3_sim q t : orthogonal q -> tr3 (sim q t) = tr3 t.
Proof. intros (O & _). unfold sim. rewrite tr3_comm, mm_assoc, O, mm_I_l. reflexivity. Qed.
Lemma tr3_appr a b e : appr a b e -> Rabs (tr3 a - tr3 b) <= 3 * e.
Proof.
  intros H. apply appr_entries in H. destruct H as (A & _ & _ & _ & B & _ & _ & _ & C). unfold tr3.
  apply Rabs_le_inv in A. apply Rabs_le_inv in B. apply Rabs_le_inv in C. apply Rabs_le. lra.
Qed.
Lemma quad_near s q t b w : orthogonal q -> appr s (sim q t) b -> Rabs (vdot (mv q w) (mv s (mv q w)) - vdot w (mv t w)) <= b * vdot w w.
Proof.
  intros O A. pose proof (appr_dot _ _ _ (mv q w) A) as D. rewrite orthogonal_dot in D by exact O. unfold sim in D. rewrite !mv_mm, orthogonal_inv_l, orthogonal_dot in D by exact O. exact D.
Qed.
Lemma bnd_quad s l v : bnd s l -> vdot v (mv s v) <= l * vdot v v.
Proof.
  intros B. pose proof (cauchy v (mv s v)) as C. pose proof (Rle_abs (vdot v (mv s v))). specialize (B v). pose proof (vlen_nonneg v). rewrite <- (vlen_sq v).
  assert (vlen v * vlen (mv s v) <= vlen v * (l * vlen v)) by (apply Rmult_le_compat_l; assumption). lra.
Qed.
(** the sum of two diagonal entries *)
Lemma pair_low s q d o b k : orthogonal q -> (forall v, k * vdot v v + vdot v (mv s v) <= tr3 s * vdot v v) -> appr s (sim q (tri d o)) b ->
  k - 4 * b <= vx d + vy d /\ k - 4 * b <= vy d + vz d.
Proof.
  intros O TR A. pose proof (tr3_appr _ _ _ A) as T. rewrite tr3_sim in T by exact O. apply Rabs_le_inv in T.
  assert (G : forall w, vdot w w = 1 -> k - 4 * b <= tr3 (tri d o) - vdot w (mv (tri d o) w)).
  { intros w W. pose proof (quad_near s q (tri d o) b w O A) as N. specialize (TR (mv q w)). rewrite orthogonal_dot in TR by exact O. rewrite W in *. apply Rabs_le_inv in N. lra. }
  pose proof (G (mkV3 0 0 1) ltac:(vring)) as G2. pose proof (G (mkV3 1 0 0) ltac:(vring)) as G0. clear - G0 G2. destruct d, o. unfold tri, tr3 in *. ru_spec. lra.
Qed.
(** the entries beside the diagonal *)
Lemma off_half s q d o b l : orthogonal q -> bnd s l -> (forall v, -1e-12 * vdot v v <= vdot v (mv s v)) -> appr s (sim q (tri d o)) b -> Rabs (px o) <= l / 2 + b + 1e-12 /\ Rabs (py o) <= l / 2 + b + 1e-12.
Proof.
  intros O B P A.
  assert (G : forall w, - ((b + 1e-12) * vdot w w) <= vdot w (mv (tri d o) w) <= (l + b) * vdot w w).
  { intros w. pose proof (quad_near s q (tri d o) b w O A) as N. pose proof (bnd_quad s l (mv q w) B) as Q. specialize (P (mv q w)). rewrite orthogonal_dot in Q, P by exact O. apply Rabs_le_inv in N. lra. }
  pose proof (G (mkV3 1 1 0)) as G0. pose proof (G (mkV3 1 (-1) 0)) as G1. pose proof (G (mkV3 0 1 1)) as G2. pose proof (G (mkV3 0 1 (-1))) as G3. clear - G0 G1 G2 G3. destruct d, o. unfold tri in *. ru_spec. split; apply Rabs_le; lra.
Qed.
Lemma pow6_low x y c : 0 <= c -> c <= Rabs x -> c <= Rabs y -> c ^ 6 <= x * x * (y * y * (y * y)).
Proof.
  intros C X Y. replace (c ^ 6) with (c * c * (c * c * (c * c))) by ring. rewrite <- (abs_sq x), <- (abs_sq y).
  assert (XX : c * c <= Rabs x * Rabs x) by (apply Rmult_le_compat; assumption). assert (YY : c * c <= Rabs y * Rabs y) by (apply Rmult_le_compat; assumption). assert (0 <= c * c) by apply Rle_0_sqr.
  apply Rmult_le_compat; [assumption|apply Rmult_le_pos; assumption|exact XX|]. apply Rmult_le_compat; assumption.
Qed.
Lemma pow6_up x y c : Rabs x <= c -> Rabs y <= c -> x * x * (y * y * (y * y)) <= c ^ 6.
Proof.
  intros X Y. replace (c ^ 6) with (c * c * (c * c * (c * c))) by ring. rewrite <- (abs_sq x), <- (abs_sq y). pose proof (Rabs_pos x). pose proof (Rabs_pos y).
  assert (XX : Rabs x * Rabs x <= c * c) by (apply Rmult_le_compat; assumption). assert (YY : Rabs y * Rabs y <= c * c) by (apply Rmult_le_compat; assumption). assert (0 <= Rabs x * Rabs x) by apply Rle_0_sqr. assert (0 <= Rabs y * Rabs y) by apply Rle_0_sqr.
  apply Rmult_le_compat; [assumption|apply Rmult_le_pos; assumption|exact XX|]. apply Rmult_le_compat; assumption.
Qed.
Lemma potential_pos o : 0 <= potential o.
Proof. unfold potential. apply Rmult_le_pos; [apply Rle_0_sqr|apply Rmult_le_pos; apply Rle_0_sqr]. Qed.

Section F64.
Variables gsin gcos : binary_float 53 1024 -> binary_float 53 1024.
Local Notation F := (binary_float 53 1024).
Local Hint Extern 0 (Ops (binary_float 53 1024)) => exact (B_ops 53 1024 f64_prec f64_emax gsin gcos) : typeclass_instances.
Local Notation flr := (fl 53 1024).
Local Notation finv := (finv gsin gcos).
Variables (s : M33 R) (l e : R) (eps : F).
Hypotheses (Bs : bnd s l) (L1 : 1 <= l <= 3.05) (PD : forall v, -1e-12 * vdot v v <= vdot v (mv s v)) (FE : flr eps e) (E1 : 0.99e-7 <= e <= 1.01e-7).
Hypothesis (TR : forall v, 0.48 * l * vdot v v + vdot v (mv s v) <= tr3 s * vdot v v).

Lemma low_s Q d o b : orthogonal Q -> appr s (sim Q (tri d o)) b -> b <= 1e-8 -> 1.7e-5 <= Rabs (vx d) + Rabs (vy d) /\ 1.7e-5 <= Rabs (vy d) + Rabs (vz d).
Proof.
  intros OQ A Lb. destruct (pair_low s Q d o b (0.48 * l) OQ TR A) as (H0 & H1). pose proof (Rle_abs (vx d)). pose proof (Rle_abs (vy d)). pose proof (Rle_abs (vz d)). lra.
Qed.
Lemma low_02 d o o0 q a b : b <= 1e-8 -> finv s l e 0 2 d o q a b -> delimit_subproblem d o0 2 eps = Some (0%nat, 2%nat, o) ->
  4.7e-8 * l <= Rabs (B2R (px o)) <= 0.51 * l /\ 4.7e-8 * l <= Rabs (B2R (py o)) <= 0.51 * l.
Proof.
  intros Lb (Fd & Fo & [(_ & _ & FO & _)|[(X & _)|[(_ & X & _)|(_ & X & _)]]]) DE; [|discriminate|discriminate|discriminate].
  destruct (follows_bounds s l Bs q _ _ a b FO ltac:(lra)) as (B0 & B1 & B2 & _ & _).
  destruct FO as (Q & QN & AP). assert (OQ : orthogonal Q) by apply QN. pose proof (pair_low s Q _ _ b (0.48 * l) OQ TR AP) as (PL0 & PL1).
  pose proof (off_half s Q _ _ b l OQ Bs PD AP) as (U0 & U1).
  destruct d as [d0 d1 d2], o as [oa ob], o0 as [oc od]. unfold vreal, v2real in *. cbn [vx vy vz px py] in *. destruct Fd as (Fd0 & Fd1 & Fd2). destruct Fo as (Fo0 & Fo1). cbn [vx vy vz px py] in *.
  rewrite delimit2_e in DE. destruct (o_ltb _ (o_abs od)) eqn:C1.
  2: { destruct (o_ltb _ (o_abs oc)); discriminate. }
  destruct (orb _ _) eqn:C0; [discriminate|]. injection DE as -> ->. apply orb_false_iff in C0. destruct C0 as (_ & C0).
  assert (LL : forall (dn dm o : F), is_finite dn = true -> is_finite dm = true -> is_finite o = true -> Rabs (B2R dn) <= l + b -> Rabs (B2R dm) <= l + b -> 0.48 * l - 4 * b <= B2R dn + B2R dm ->
    exists c, flr (o_mul eps (o_add (o_abs dn) (o_abs dm))) c /\ 4.7e-8 * l <= c).
  { intros dn dm o Fn Fm Fo Ln Lm PS. destruct (thresh_f gsin gcos eps dn dm e _ _ FE E1 (fin_fl _ Fn) (fin_fl _ Fm)) as (c & Fc & _ & _ & CL); [lra|lra|].
    exists c. split; [exact Fc|]. pose proof (Rle_abs (B2R dn)). pose proof (Rle_abs (B2R dm)). specialize (CL ltac:(lra)).
    assert (0.99e-7 * (0.4799 * l) <= e * (Rabs (B2R dn) + Rabs (B2R dm))) by (apply Rmult_le_compat; lra). lra. }
  destruct (LL d2 d1 ob Fd2 Fd1 Fo1 B2 B1 ltac:(lra)) as (c1 & Fc1 & Lc1). destruct (LL d1 d0 oa Fd1 Fd0 Fo0 B1 B0 ltac:(lra)) as (c0 & Fc0 & Lc0).
  pose proof (fl_abs 53 1024 f64_prec f64_emax gsin gcos _ _ (fin_fl _ Fo0)) as A0. pose proof (fl_abs 53 1024 f64_prec f64_emax gsin gcos _ _ (fin_fl _ Fo1)) as A1.
  apply (fl_ltb 53 1024 f64_prec f64_emax gsin gcos _ _ _ _ Fc1 A1) in C1.
  assert (C0' : c0 < Rabs (B2R oa)). { apply Rnot_le_lt. intros H. apply (fl_leb 53 1024 f64_prec f64_emax gsin gcos _ _ _ _ A0 Fc0) in H. congruence. }
  lra.
Qed.

Lemma step_V d o q a b d' o' q' fin' : a <= 0.4 -> b <= 1e-8 -> finv s l e 0 2 d o q a b ->
  4.7e-8 * l <= Rabs (B2R (px o)) <= 0.51 * l -> 4.7e-8 * l <= Rabs (B2R (py o)) <= 0.51 * l ->
  qr_step eps 0 2 (d, o, q) = Some (d', o', q', fin') -> potential (v2real o') <= 0.31 * potential (v2real o).
Proof.
  intros La Lb (Fd & Fo & [(_ & _ & FO & _)|[(X & _)|[(_ & X & _)|(_ & X & _)]]]) R0 R1; [|discriminate|discriminate|discriminate].
  destruct (follows_bounds s l Bs q _ _ a b FO ltac:(lra)) as (B0 & B1 & B2 & _ & _). clear FO.
  destruct d as [d0 d1 d2], o as [o0 o1]. unfold vreal in *. cbn [vx vy vz px py] in *. destruct Fd as (Fd0 & Fd1 & Fd2). destruct Fo as (Fo0 & Fo1). cbn [vx vy vz px py] in *.
  rewrite step02_e. destruct (wilkinson_acc gsin gcos d1 d2 o1 Fd1 Fd2 Fo1) as (w & al1 & al2 & Fw & Lw & AL & A2 & D2 & D1); [lra|lra|lra|].
  pose proof u64_le as U. pose proof tiny64_le as TI. pose proof big64_ge as BG. pose proof (bpow_gt_0 radix2 (- (53))) as UP.
  destruct (sub_err 53 1024 f64_prec f64_emax gsin gcos _ _ _ _ 8.1 (fin_fl _ Fd0) Fw) as (x & Fx & Dx & _). { lra. } { pose proof (abs_sub_le (B2R d0) w 3.2 4.9 ltac:(lra) Lw). lra. } { lra. }
  assert (Dx' : Rabs (x - (B2R d0 - w)) <= 1e-15) by lra. apply Rabs_le_inv in Dx'. pose proof (Rabs_le_inv _ _ D1) as D1'. pose proof (Rabs_le_inv _ _ D2) as D2'.
  destruct (chase _ _ _ _ _ _) as [((d'' & o'') & q'')|] eqn:EC; [|discriminate]. intros ES.
  assert (EO : o'' = o') by (destruct (o_leb _ _); injection ES; intros; congruence). subst o''.
  assert (HR : 1e-14 * 1e-14 * Rabs (B2R o0) <= 1e-6 * (Rabs (B2R o1) * Rabs (B2R o1) * Rabs (B2R o1))).
  { set (t := Rabs (B2R o1)) in *. assert (K : 4.7e-8 * l * (4.7e-8 * 1) * (4.7e-8 * 1) <= t * t * t) by (apply Rmult_le_compat; [| |apply Rmult_le_compat|]; lra || (apply Rmult_le_pos; lra)). lra. }
  apply (chase_V gsin gcos _ d0 d1 d2 o0 o1 x al1 al2 q d'' o' q'' Fx); try assumption; try lra; apply Rabs_le; lra.
Qed.

Local Notation Vmin := ((4.7e-8 * l) ^ 6).
Lemma vmin_pos : 0 < Vmin.
Proof. apply pow_lt. lra. Qed.
Lemma low_V o : 4.7e-8 * l <= Rabs (B2R (px o)) <= 0.51 * l -> 4.7e-8 * l <= Rabs (B2R (py o)) <= 0.51 * l -> Vmin <= potential (v2real o).
Proof. intros A B. unfold potential, v2real. cbn [px py]. apply pow6_low; lra. Qed.

Lemma delimit_le d o fin start' fin' o' : (fin <= 2)%nat -> delimit_subproblem d o fin eps = Some (start', fin', o') -> (fin' <= fin)%nat /\ (fin' = 0%nat -> start' = 0%nat).
Proof.
  intros L. destruct d as [d0 d1 d2], o as [o0 o1]. destruct fin as [|[|[|k]]]; [rewrite delimit0_e|rewrite delimit1_e|rewrite delimit2_e|lia].
  - intros H. injection H as <- <- <-. lia.
  - destruct (o_ltb _ _); intros H; injection H as <- <- <-; lia.
  - destruct (o_ltb _ _); [destruct (orb _ _)|destruct (o_ltb _ _)]; intros H; injection H as <- <- <-; lia.
Qed.
Lemma delimit_02 d o fin o' : (fin <= 2)%nat -> delimit_subproblem d o fin eps = Some (0%nat, 2%nat, o') -> fin = 2%nat /\ o' = o.
Proof.
  intros L H. destruct (delimit_le _ _ _ _ _ _ L H) as (G & _). assert (fin = 2%nat) by lia. subst fin. split; [reflexivity|]. destruct d as [d0 d1 d2], o as [o0 o1]. rewrite delimit2_e in H.
  destruct (o_ltb _ _); [destruct (orb _ _); [discriminate|congruence]|]. destruct (o_ltb _ _); discriminate.
Qed.

Lemma loop_ok : forall left start fin d o q a b, finv s l e start fin d o q a b -> (exists fin0 o0, (fin0 <= 2)%nat /\ delimit_subproblem d o0 fin0 eps = Some (start, fin, o)) ->
  a + INR left * 3e-14 <= 0.4 -> b + INR left * 2e-13 <= 1e-9 ->
  (fin = 1%nat -> (2 <= left)%nat) -> (start = 1%nat -> (3 <= left)%nat) -> (start = 0%nat -> fin = 2%nat -> exists k, left = (k + 4)%nat /\ potential (v2real o) * 0.31 ^ k < Vmin) ->
  exists r, qr_loop eps left start fin (d, o, q) = Some (Some r).
Proof.
  induction left as [|n IH]; intros start fin d o q a b I (fin0 & o0 & F0 & DE) La Lb H1 H2 H3.
  - cbn [qr_loop]. destruct (Nat.eqb fin start) eqn:E; [eexists; reflexivity|]. exfalso. apply Nat.eqb_neq in E.
    destruct I as (_ & _ & [(-> & -> & _)|[(-> & -> & _)|[(-> & -> & _)|(-> & -> & _)]]]); [destruct (H3 eq_refl eq_refl) as (k & K & _); lia|specialize (H2 eq_refl); lia|specialize (H1 eq_refl); lia|congruence].
  - rewrite S_INR in *. pose proof (pos_INR n) as PN. cbn [qr_loop]. destruct (Nat.eqb fin start) eqn:E; [eexists; reflexivity|].
    apply Nat.eqb_neq in E. destruct (finv_step gsin gcos s l e eps Bs L1 FE E1 low_s start fin d o q a b ltac:(lra) ltac:(lra) E I) as (d1 & o1 & q1 & fin1 & start2 & fin2 & o2 & ES & D & I2).
    rewrite ES. cbn [bind]. rewrite D. cbn [bind].
    assert (N1 : (1 <= n)%nat).
    { destruct I as (_ & _ & [(-> & -> & _)|[(-> & -> & _)|[(-> & -> & _)|(-> & -> & _)]]]); [destruct (H3 eq_refl eq_refl) as (k & K & _); lia|specialize (H2 eq_refl); lia|specialize (H1 eq_refl); lia|congruence]. }
    replace (Nat.eqb n 0) with false by (symmetry; apply Nat.eqb_neq; lia).
    assert (F1 : (fin1 <= 2)%nat /\ (start = 1%nat -> (fin1 <= 1)%nat) /\ (fin = 1%nat -> (fin1 <= 0)%nat)).
    { clear - I ES E. destruct d as [d0' d1' d2'], o as [oa ob]. destruct I as (_ & _ & [(-> & -> & _)|[(-> & -> & _)|[(-> & -> & _)|(-> & -> & _)]]]).
      - rewrite step02_e in ES. destruct (chase _ _ _ _ _ _) as [((x & y) & z)|]; [|discriminate]. destruct (o_leb _ _); injection ES as <- <- <- <-; lia.
      - rewrite step12_e in ES. repeat match type of ES with context [match ?x with _ => _ end] => destruct x; try discriminate end; injection ES as <- <- <- <-; lia.
      - rewrite step01_e in ES. repeat match type of ES with context [match ?x with _ => _ end] => destruct x; try discriminate end; injection ES as <- <- <- <-; lia.
      - congruence. }
    destruct F1 as (F1 & F1' & F1''). destruct (delimit_le _ _ _ _ _ _ F1 D) as (G2 & G3).
    assert (S2 : start2 = 1%nat -> fin2 = 2%nat).
    { intros ->. destruct I2 as (_ & _ & [(X & _)|[(_ & X & _)|[(X & _)|(X & _)]]]); congruence. }
    apply (IH _ _ _ _ _ _ _ I2); [exists fin1, o1; split; assumption|lra|lra| | |].
    + intros ->. destruct I as (_ & _ & [(-> & -> & _)|[(-> & -> & _)|[(-> & -> & _)|(-> & -> & _)]]]); [destruct (H3 eq_refl eq_refl) as (k & K & _); lia|specialize (H2 eq_refl); lia| |congruence].
      specialize (F1'' eq_refl). lia.
    + intros X. specialize (S2 X). subst. destruct I as (_ & _ & [(-> & -> & _)|[(-> & -> & _)|[(-> & -> & _)|(-> & -> & _)]]]); [destruct (H3 eq_refl eq_refl) as (k & K & _); lia| | |congruence].
      * specialize (F1' eq_refl). lia.
      * specialize (F1'' eq_refl). lia.
    + intros -> ->. assert (fin1 = 2%nat) by lia. subst fin1. destruct (delimit_02 _ _ _ _ (le_n 2) D) as (_ & ->).
      assert (SF : start = 0%nat /\ fin = 2%nat). { destruct I as (_ & _ & [(-> & -> & _)|[(-> & -> & _)|[(-> & -> & _)|(-> & -> & _)]]]); [lia|specialize (F1' eq_refl); lia|specialize (F1'' eq_refl); lia|congruence]. }
      destruct SF as (-> & ->). destruct (H3 eq_refl eq_refl) as (k & K & HV). destruct (delimit_02 _ _ _ _ F0 DE) as (-> & ->).
      destruct (low_02 _ _ _ _ a b ltac:(lra) I DE) as (R0 & R1).
      pose proof (step_V _ _ _ a b _ _ _ _ ltac:(lra) ltac:(lra) I R0 R1 ES) as SV.
      destruct k as [|k]. { cbn [pow] in HV. pose proof (low_V _ R0 R1). lra. }
      exists k. split; [lia|]. eapply Rle_lt_trans; [|exact HV]. cbn [pow]. rewrite <- Rmult_assoc, (Rmult_comm (potential (v2real o0))). apply Rmult_le_compat_r; [apply pow_le; lra|exact SV].
Qed.
(** from the first state: at most 96 steps of the whole matrix *)
Lemma power_gap : 0.51 ^ 6 * 0.31 ^ 96 < 4.7e-8 ^ 6.
Proof.
  assert (P2 : 0.31 ^ 2 <= 0.0962) by lra. assert (P4 : 0.31 ^ 4 <= 0.00926) by lra. assert (P8 : 0.31 ^ 8 <= 8.6e-5) by lra.
  assert (Q8 : 0 < 0.31 ^ 8) by (apply pow_lt; lra). assert (P16 : 0.31 ^ 16 <= 7.4e-9). { replace (0.31 ^ 16) with (0.31 ^ 8 * 0.31 ^ 8) by (rewrite <- pow_add; reflexivity). apply Rle_trans with (8.6e-5 * 8.6e-5); [apply Rmult_le_compat; lra|lra]. }
  assert (P96 : 0.31 ^ 96 <= 7.4e-9 ^ 6). { replace 96%nat with (16 * 6)%nat by reflexivity. rewrite pow_mult. apply pow_incr. split; [left; apply pow_lt; lra|exact P16]. }
  assert (0 < 7.4e-9 ^ 6) by (apply pow_lt; lra). apply Rle_lt_trans with (0.51 ^ 6 * 7.4e-9 ^ 6); [apply Rmult_le_compat_l; [apply pow_le; lra|exact P96]|].
  rewrite <- Rpow_mult_distr. cbn [pow]. lra.
Qed.
Lemma start_ok d o q a b : b <= 1e-8 -> finv s l e 0 2 d o q a b -> forall o0, delimit_subproblem d o0 2 eps = Some (0%nat, 2%nat, o) -> potential (v2real o) * 0.31 ^ 96 < Vmin.
Proof.
  intros Lb I o0 DE. destruct (low_02 _ _ _ _ _ _ Lb I DE) as (R0 & R1).
  assert (U : potential (v2real o) <= (0.51 * l) ^ 6) by (unfold potential, v2real; cbn [px py]; apply pow6_up; lra).
  assert (P : 0 < 0.31 ^ 96) by (apply pow_lt; lra). assert (L6 : 0 < l ^ 6) by (apply pow_lt; lra). pose proof power_gap as G. rewrite Rpow_mult_distr in *.
  apply Rle_lt_trans with (0.51 ^ 6 * l ^ 6 * 0.31 ^ 96); [apply Rmult_le_compat_r; lra|].
  replace (0.51 ^ 6 * l ^ 6 * 0.31 ^ 96) with (0.51 ^ 6 * 0.31 ^ 96 * l ^ 6) by (generalize (0.31 ^ 96), (0.51 ^ 6), (l ^ 6); intros; ring). apply Rmult_lt_compat_r; assumption.
Qed.
Lemma converges d o q a b start fin o' : a + 100 * 3e-14 <= 0.4 -> b + 100 * 2e-13 <= 1e-9 -> finv s l e start fin d o' q a b -> delimit_subproblem d o 2 eps = Some (start, fin, o') ->
  exists r, qr_loop eps 100 start fin (d, o', q) = Some (Some r).
Proof.
  intros La Lb I DE. apply (loop_ok 100 start fin d o' q a b I).
  - exists 2%nat, o. split; [lia|exact DE].
  - replace (INR 100) with 100 by (rewrite INR_IZR_INZ; reflexivity). exact La.
  - replace (INR 100) with 100 by (rewrite INR_IZR_INZ; reflexivity). exact Lb.
  - lia.
  - lia.
  - intros -> ->. exists 96%nat. split; [reflexivity|]. apply (start_ok d o' q a b ltac:(lra) I o DE).
Qed.
End F64.
