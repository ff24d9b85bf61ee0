(** * SymEigenProofs9.v - the iteration converges *)

From Coq Require Import Reals List Arith Lra Lia Psatz.
From Verif Require Import Scalar Linalg Householder RayIntersection SymEigen Spec SpecIsect SpecSvd RealBase VecLemmas FromViewProofs QRProofs
  TriProofs SymEigenProofs SymEigenProofs2 SymEigenProofs3 SymEigenProofs4 SymEigenProofs5 SymEigenProofs6 SymEigenProofs8.
Import ListNotations.
Local Open Scope R_scope.

(** ** What a similarity preserves *)
Definition mtrace (m : M33 R) : R := m00 m + m11 m + m22 m.
Lemma mtrace_comm a b : mtrace (mm a b) = mtrace (mm b a).
Proof. unfold mtrace. destruct a, b. ru_spec. ring. Qed.
Lemma mtrace_sim q t : orthogonal q -> mtrace (sim q t) = mtrace t.
Proof.
  intros (Q1 & _). unfold sim. rewrite mtrace_comm. first [rewrite mm_assoc, Q1, mm_I_l|rewrite <- mm_assoc, mtrace_comm, <- mm_assoc, Q1, mm_I_r]; reflexivity.
Qed.
Lemma sim_sq q t : orthogonal q -> mm (sim q t) (sim q t) = sim q (mm t t).
Proof.
  intros (Q1 & _). unfold sim. rewrite <- !mm_assoc. rewrite (mm_assoc (mtr q) q), Q1, mm_I_l. reflexivity.
Qed.
Definition mdev (s : M33 R) : R := mtrace (mm s s) - mtrace s * mtrace s / 3.
Lemma mdev_tri q d o : orthogonal q -> mdev (sim q (tri d o)) = dev d o /\ mtrace (sim q (tri d o)) = vx d + vy d + vz d.
Proof.
  intros Oq. unfold mdev. rewrite sim_sq, !mtrace_sim by exact Oq. unfold dev, mtrace, tri. destruct d, o. ru_spec. split; ring.
Qed.
Definition psd (s : M33 R) : Prop := forall v, 0 <= vdot v (mv s v).
Lemma psd_sim q t : orthogonal q -> psd (sim q t) -> psd t.
Proof.
  intros Oq P v. specialize (P (mv q v)). unfold sim in P. rewrite !mv_mm, orthogonal_inv_l in P by exact Oq.
  rewrite orthogonal_dot in P by exact Oq. exact P.
Qed.
Lemma quad_disc a b c : (forall x y, 0 <= a * (x * x) + 2 * b * (x * y) + c * (y * y)) -> 0 <= a /\ 0 <= c /\ b * b <= a * c.
Proof.
  intros H. assert (A : 0 <= a) by (specialize (H 1 0); lra). assert (C : 0 <= c) by (specialize (H 0 1); lra).
  split; [exact A|]. split; [exact C|].
  destruct (Req_dec a 0) as [->|N].
  - destruct (Req_dec b 0) as [->|NB]; [lra|]. exfalso. specialize (H (- (c + 1) / (2 * b)) 1).
    replace (0 * (- (c + 1) / (2 * b) * (- (c + 1) / (2 * b))) + 2 * b * (- (c + 1) / (2 * b) * 1) + c * (1 * 1)) with (- 1) in H by (field; exact NB). lra.
  - specialize (H (- b) a). assert (0 < a) by lra. apply (Rmult_le_reg_l a); [lra|]. lra.
Qed.
Lemma psd_tri d o : psd (tri d o) -> 0 <= vx d /\ 0 <= vy d /\ 0 <= vz d /\ px o * px o <= vx d * vy d /\ py o * py o <= vy d * vz d.
Proof.
  intros P. destruct d as [a b c], o as [e f]. cbn [vx vy vz px py].
  destruct (quad_disc a e b) as (A & B & E).
  { intros x y. specialize (P (mkV3 x y 0)). unfold tri in P. ru_spec. lra. }
  destruct (quad_disc b f c) as (_ & C & F).
  { intros x y. specialize (P (mkV3 0 x y)). unfold tri in P. ru_spec. lra. }
  auto.
Qed.

(** ** Before the iteration stops the product is not too small *)
Lemma lower_b e t b x eps : 0 < eps -> 0 < t -> 0 <= x -> x <= t -> 0 <= b -> e * e <= x * b -> eps * (t / 2) <= Rabs e -> eps * eps * t / 4 <= b.
Proof.
  intros E T X XT B H L.
  assert (P : eps * (t / 2) * (eps * (t / 2)) <= e * e).
  { rewrite <- (Rabs_pos_eq (e * e)) by apply sq_nonneg. rewrite Rabs_mult. apply Rmult_le_compat; try exact L; apply Rmult_le_pos; lra. }
  apply (Rmult_le_reg_l t); [exact T|]. assert (x * b <= t * b) by (apply Rmult_le_compat_r; lra). lra.
Qed.
Lemma sq_low x e : 0 <= x -> x <= Rabs e -> x * x <= e * e.
Proof. intros X H. rewrite <- (Rabs_pos_eq (e * e)) by apply sq_nonneg. rewrite Rabs_mult. apply Rmult_le_compat; assumption. Qed.
Lemma unreduced_zz a b c e f eps t : 0 < eps -> eps <= 1 -> 0 <= a -> 0 <= b -> 0 <= c -> t = a + b + c ->
  e * e <= a * b -> f * f <= b * c -> eps * (b + a) < Rabs e -> eps * (c + b) < Rabs f ->
  0 < t /\ eps ^ 14 * t ^ 6 / 1024 <= zz (mkV2 e f).
Proof.
  intros E E1 A B C T EE FF UE UF.
  assert (T0 : 0 < t).
  { destruct (Req_dec t 0) as [Z|Z]; [|lra]. exfalso. assert (a = 0) by lra. assert (b = 0) by lra. subst a b.
    assert (e * e <= 0) by lra. assert (e = 0) by (destruct (Req_dec e 0) as [|N]; [assumption|pose proof (sq_pos e N); lra]).
    subst e. rewrite Rabs_R0 in UE. lra. }
  split; [exact T0|]. unfold zz. cbn [px py].
  assert (P1 : 0 <= eps * eps) by apply sq_nonneg.
  assert (PB : eps * eps * t / 4 <= b).
  { destruct (Rle_or_lt (t / 2) (a + b)) as [G|G].
    - apply (lower_b e t b a eps); try assumption; try lra. apply Rle_trans with (eps * (b + a)); [apply Rmult_le_compat_l; lra|lra].
    - apply (lower_b f t b c eps); try assumption; try lra. apply Rle_trans with (eps * (c + b)); [apply Rmult_le_compat_l; lra|lra]. }
  set (u := eps * (eps * eps * t / 4)). set (v := eps * (t / 2)).
  assert (U0 : 0 < u) by (unfold u; assert (0 < eps * eps * t) by (repeat apply Rmult_lt_0_compat; assumption); apply Rmult_lt_0_compat; lra).
  assert (V0 : 0 < v) by (unfold v; apply Rmult_lt_0_compat; lra).
  assert (UE' : u <= Rabs e) by (apply Rle_trans with (eps * (b + a)); [apply Rmult_le_compat_l; lra|lra]).
  assert (UF' : u <= Rabs f) by (apply Rle_trans with (eps * (c + b)); [apply Rmult_le_compat_l; lra|lra]).
  assert (UV : u <= v).
  { unfold u, v. apply Rmult_le_compat_l; [lra|]. assert (eps * eps <= 1) by nra. nra. }
  assert (G4 : forall x y z, 0 <= x -> 0 <= y -> x * x <= y -> 0 <= z -> x * x * (x * x) * z <= y * y * z).
  { intros x y z X Y XY Z. apply Rmult_le_compat_r; [exact Z|]. apply Rmult_le_compat; try exact XY; apply sq_nonneg. }
  assert (EQ : eps ^ 14 * t ^ 6 / 1024 = u * u * (u * u) * (v * v)) by (unfold u, v; field). rewrite EQ.
  destruct (Rle_or_lt (t / 2) (a + b)) as [G|G].
  - assert (VE : v <= Rabs e) by (unfold v; apply Rle_trans with (eps * (b + a)); [apply Rmult_le_compat_l; lra|lra]).
    pose proof (sq_low u f ltac:(lra) UF') as S1. pose proof (sq_low v e ltac:(lra) VE) as S2.
    apply Rle_trans with (f * f * (f * f) * (v * v)); [apply G4; try assumption; try lra; apply sq_nonneg|].
    apply Rmult_le_compat_l; [apply sq_nonneg|exact S2].
  - assert (VF : v <= Rabs f) by (unfold v; apply Rle_trans with (eps * (c + b)); [apply Rmult_le_compat_l; lra|lra]).
    pose proof (sq_low v f ltac:(lra) VF) as S1. pose proof (sq_low u e ltac:(lra) UE') as S2.
    apply Rle_trans with (v * v * (v * v) * (u * u)).
    + assert (UV2 : u * u <= v * v) by (apply Rmult_le_compat; lra).
      replace (u * u * (u * u) * (v * v)) with (u * u * (v * v) * (u * u)) by ring. apply Rmult_le_compat_r; [apply sq_nonneg|].
      apply Rmult_le_compat_r; [apply sq_nonneg|exact UV2].
    + apply Rle_trans with (f * f * (f * f) * (u * u)); [apply G4; try assumption; try lra; apply sq_nonneg|].
      apply Rmult_le_compat_l; [apply sq_nonneg|exact S2].
Qed.

(** ** The bound after [k] steps *)
Fixpoint ms (k : nat) : nat := match k with O => 11 | S k => 4 * ms k / 3 end.
Definition ybound (k : nat) : R := if Nat.leb k 11 then 256 * (8 / 27) ^ k else (/ 2) ^ ms (k - 11).
Lemma pow_half_pos n : 0 < (/ 2) ^ n.
Proof. apply pow_lt. lra. Qed.
Lemma fast_step y y' m m' : 0 <= y -> 0 <= y' -> y <= (/ 2) ^ m -> y' * y' * y' <= y * y * y * y -> (3 * m' <= 4 * m)%nat -> y' <= (/ 2) ^ m'.
Proof.
  intros Y Y' H H3 M. destruct (Rle_or_lt y' ((/ 2) ^ m')) as [|G]; [assumption|exfalso].
  pose proof (pow_half_pos m') as P. set (b := (/ 2) ^ m') in *.
  assert (B : b * b * b < y' * y' * y') by (assert (b * b < y' * y') by nra; assert (0 < b * b) by nra; nra).
  assert (C : y * y * y * y <= (/ 2) ^ (4 * m)).
  { replace (4 * m)%nat with (m + m + m + m)%nat by lia. rewrite !pow_add.
    repeat apply Rmult_le_compat; try assumption; repeat apply Rmult_le_pos; assumption. }
  assert (D : (/ 2) ^ (4 * m) <= (/ 2) ^ (3 * m')).
  { replace (4 * m)%nat with (3 * m' + (4 * m - 3 * m'))%nat by lia. rewrite pow_add. pose proof (pow_half_pos (3 * m')).
    rewrite <- (Rmult_1_r ((/ 2) ^ (3 * m'))) at 2. apply Rmult_le_compat_l; [lra|]. rewrite <- (pow1 (4 * m - 3 * m')). apply pow_incr. lra. }
  replace (3 * m')%nat with (m' + m' + m')%nat in D by lia. rewrite !pow_add in D. fold b in D. lra.
Qed.
Lemma ybound_next k y y' : 0 <= y -> 0 <= y' -> y <= ybound k -> y' <= 8 / 27 * y -> y' * y' * y' <= y * y * y * y -> y' <= ybound (S k).
Proof.
  intros Y Y' H H1 H3. unfold ybound in *. destruct (Nat.leb k 11) eqn:K.
  - apply Nat.leb_le in K. destruct (Nat.eq_dec k 11) as [->|NK].
    + cbn [Nat.leb Nat.sub]. apply (fast_step y y' 11 (ms 1)); try assumption; [lra|cbn; lia].
    + replace (Nat.leb (S k) 11) with true by (symmetry; apply Nat.leb_le; lia). cbn [pow]. lra.
  - apply Nat.leb_gt in K. replace (Nat.leb (S k) 11) with false by (symmetry; apply Nat.leb_gt; lia).
    replace (S k - 11)%nat with (S (k - 11)) by lia. apply (fast_step y y' (ms (k - 11)) _); try assumption.
    change (ms (S (k - 11))) with (4 * ms (k - 11) / 3)%nat. pose proof (Nat.mul_div_le (4 * ms (k - 11)) 3). lia.
Qed.
Lemma ybound_last : 1024 * ybound 27 < 13824 * (1 / 10 ^ 16) ^ 14.
Proof.
  change (ybound 27) with ((/ 2) ^ ms 16). replace (ms 16) with 966%nat by (vm_compute; reflexivity).
  rewrite pow_inv. unfold Rdiv. rewrite Rmult_1_l, pow_inv.
  apply (Rmult_lt_reg_r (2 ^ 966)); [apply pow_lt; lra|]. rewrite Rmult_assoc, Rinv_l by (apply pow_nonzero; lra).
  apply (Rmult_lt_reg_r ((10 ^ 16) ^ 14)); [apply pow_lt, pow_lt; lra|].
  replace (13824 * / (10 ^ 16) ^ 14 * 2 ^ 966 * (10 ^ 16) ^ 14) with (13824 * 2 ^ 966) by (field; apply pow_nonzero, pow_nonzero; lra).
  rewrite Rmult_1_r, <- pow_mult. rewrite !pow_IZR, <- !mult_IZR. apply IZR_lt. vm_compute. reflexivity.
Qed.

(** ** The loop *)
Lemma delimit_2_strict d o eps : delimit_subproblem d o 2 eps = Some (0%nat, 2%nat, o) -> 0 <= eps ->
  eps * (Rabs (vy d) + Rabs (vx d)) < Rabs (px o) /\ eps * (Rabs (vz d) + Rabs (vy d)) < Rabs (py o).
Proof.
  intros H E0. revert H. unfold delimit_subproblem. cbn [delimit_end]. rewrite coupling_1, coupling_0. cbn [bind fst snd o_ltb R_ops].
  destruct (Rltb _ (Rabs (py o))) eqn:E1.
  - apply Rltb_true in E1. cbn [bind delimit_start fst snd]. rewrite coupling_0. cbn [v2_get v2_set bind fst snd o_eqb o_leb o_zero R_ops].
    destruct (orb _ _) eqn:E2; cbn [bind fst snd]; [discriminate|]. intros _. split; [|exact E1].
    apply Bool.orb_false_iff in E2. destruct E2 as (_ & E2). now apply Rleb_false in E2.
  - destruct (Rltb _ (Rabs (px o))) eqn:E2; cbn [bind delimit_start fst snd]; discriminate.
Qed.
Definition late (start fin : nat) (o : V2 R) : Prop :=
  (start = 1%nat /\ fin = 2%nat /\ px o = 0) \/ (start = 0%nat /\ fin = 1%nat) \/ (start = 0%nat /\ fin = 0%nat).
Lemma late_conv eps left start fin d o q : 0 <= eps -> late start fin o -> (2 <= left)%nat ->
  exists r, qr_loop eps left start fin (d, o, q) = Some (Some r).
Proof.
  intros E0 L N. destruct left as [|[|n]]; [lia|lia|]. cbn [qr_loop].
  destruct L as [(-> & -> & Z)|[(-> & ->)|(-> & ->)]]; cbn [Nat.eqb]; [| |eexists; reflexivity].
  - unfold qr_step. cbn [Nat.sub Nat.add Nat.ltb Nat.leb Nat.eqb v3_get v2_get bind].
    destruct d as [d0 d1 d2], o as [o0 o1]. cbn [vx vy vz px py] in *. subst o0.
    destruct (eigvals_R d1 o1 d2) as (v1 & v2 & -> & X). cbn [bind fst snd px py v3_set v2_set vx vy vz o_sub R_ops].
    assert (K : exists q', match givens_try_new (v1 - d2) o1 eps with Some (c, s) => rotate_rows c s 1 q | None => Some q end = Some q').
    { destruct (givens_try_new _ _ _) as [[c s]|]; [rewrite rotate_rows_1|]; eexists; reflexivity. }
    destruct K as (q' & ->). cbn [bind]. unfold delimit_subproblem. cbn [delimit_end]. rewrite coupling_0. cbn [bind fst snd o_ltb R_ops px].
    rewrite Rabs_R0. destruct (Rltb _ _) eqn:E.
    { exfalso. apply Rltb_true in E. cbn [vx vy] in E. pose proof (Rabs_pos v1). pose proof (Rabs_pos d0). nra. }
    cbn [bind]. destruct n; cbn [qr_loop Nat.eqb]; eexists; reflexivity.
  - unfold qr_step. cbn [Nat.sub Nat.add Nat.ltb Nat.leb Nat.eqb v3_get v2_get bind].
    destruct d as [d0 d1 d2], o as [o0 o1]. cbn [vx vy vz px py] in *.
    destruct (eigvals_R d0 o0 d1) as (v1 & v2 & -> & X). cbn [bind fst snd px py v3_set v2_set vx vy vz o_sub R_ops].
    assert (K : exists q', match givens_try_new (v1 - d1) o0 eps with Some (c, s) => rotate_rows c s 0 q | None => Some q end = Some q').
    { destruct (givens_try_new _ _ _) as [[c s]|]; [rewrite rotate_rows_0|]; eexists; reflexivity. }
    destruct K as (q' & ->). cbn [bind]. rewrite delimit_0. cbn [bind]. destruct n; cbn [qr_loop Nat.eqb]; eexists; reflexivity.
Qed.
Lemma delimit_cases d o eps fin : (fin = 1 \/ fin = 2)%nat -> 0 <= eps -> exists start fin' o',
  delimit_subproblem d o fin eps = Some (start, fin', o') /\ (late start fin' o' \/ (start = 0%nat /\ fin' = 2%nat /\ o' = o)).
Proof.
  intros [->| ->] E0.
  - destruct (delimit_1 d o eps) as [->|(-> & _)]; do 3 eexists; (split; [reflexivity|left]); unfold late; auto.
  - destruct (delimit_2 d o eps E0) as [->|[(-> & _)|[(-> & _)|(-> & _)]]]; do 3 eexists; (split; [reflexivity|]).
    + right. auto.
    + left. left. auto.
    + left. right. left. auto.
    + left. right. right. auto.
Qed.
(** the state of the loop after [k] steps, as long as nothing has been split off *)
Definition early (s : M33 R) (eps : R) (k : nat) (d : V3 R) (o : V2 R) (q : M33 R) : Prop :=
  orthogonal q /\ s = sim q (tri d o) /\
  eps * (Rabs (vy d) + Rabs (vx d)) < Rabs (px o) /\ eps * (Rabs (vz d) + Rabs (vy d)) < Rabs (py o) /\
  13824 * zz o <= ybound k * (mdev s * mdev s * mdev s).
Lemma early_end s eps d o q : psd s -> 1 / 10 ^ 16 <= eps -> early s eps 27 d o q -> False.
Proof.
  intros PS E (Oq & SS & U0 & U1 & Z). destruct (mdev_tri q d o Oq) as (MD & _). rewrite <- SS in MD. rewrite MD in Z.
  rewrite SS in PS. apply (psd_sim q _ Oq) in PS. destruct (psd_tri d o PS) as (A & B & C & EE & FF).
  rewrite !Rabs_pos_eq in U0 by assumption. rewrite !Rabs_pos_eq in U1 by assumption.
  pose proof (dev_nonneg d o) as DN. pose proof (sq_nonneg (px o)) as Q0. pose proof (sq_nonneg (py o)) as Q1.
  destruct d as [a b c], o as [e f]. cbn [vx vy vz px py] in *.
  assert (X0 : 0 < 1 / 10 ^ 16) by (apply Rdiv_lt_0_compat; [|apply pow_lt]; lra).
  assert (E1 : eps <= 1).
  { destruct (Rle_or_lt eps 1) as [|G]; [assumption|exfalso].
    assert (H1 : b + a <= Rabs e) by nra. apply sq_low in H1; [|lra]. assert (ab : 0 <= a * b) by now apply Rmult_le_pos.
    assert (Z0 : a * a + b * b + a * b <= 0) by lra. pose proof (sq_nonneg a). pose proof (sq_nonneg b).
    assert (a * a = 0) by lra. assert (b * b = 0) by lra. assert (a * b = 0) by lra. assert (E2 : e * e = 0) by lra.
    apply Rmult_integral in E2. destruct E2 as [-> | ->]; rewrite Rabs_R0 in U0; nra. }
  destruct (unreduced_zz a b c e f eps (a + b + c)) as (T0 & LZ); try assumption; try lra.
  set (t := a + b + c) in *. set (y := dev (mkV3 a b c) (mkV2 e f)) in *.
  assert (YT : y <= t * t).
  { unfold y, dev. cbn [vx vy vz px py]. pose proof (sq_nonneg (a + b + c)) as P. fold t in P. pose proof (Rmult_le_pos _ _ A C) as AC.
    fold t. assert (t * t = a * a + b * b + c * c + 2 * (a * b) + 2 * (b * c) + 2 * (a * c)) by (unfold t; ring). lra. }
  assert (Y0 : 0 <= y) by lra.
  pose proof (cube_le y (t * t) Y0 YT) as CY. set (y3 := y * y * y) in *. replace (t * t * (t * t) * (t * t)) with (t ^ 6) in CY by ring.
  assert (T6 : 0 < t ^ 6) by now apply pow_lt. assert (E14 : (1 / 10 ^ 16) ^ 14 <= eps ^ 14) by (apply pow_incr; lra).
  pose proof ybound_last as YL. assert (YP : 0 < ybound 27) by (change (ybound 27) with ((/ 2) ^ ms 16); apply pow_half_pos).
  set (yb := ybound 27) in *. set (e14 := eps ^ 14) in *. set (x14 := (1 / 10 ^ 16) ^ 14) in *. set (t6 := t ^ 6) in *.
  clearbody yb e14 x14 t6 y3. clear -Z LZ CY T6 E14 YL YP.
  assert (yb * y3 <= yb * t6) by (apply Rmult_le_compat_l; lra).
  assert (x14 * t6 <= e14 * t6) by (apply Rmult_le_compat_r; lra).
  assert (1024 * yb * t6 < 13824 * x14 * t6) by (apply Rmult_lt_compat_r; lra). lra.
Qed.
Lemma early_conv s eps : psd s -> 1 / 10 ^ 16 <= eps -> forall left k d o q, early s eps k d o q -> (k <= 27)%nat -> (29 <= left + k)%nat ->
  exists r, qr_loop eps left 0 2 (d, o, q) = Some (Some r).
Proof.
  intros PS E. assert (E0 : 0 < eps) by (pose proof (pow_lt 10 16 ltac:(lra)) as P; assert (0 < 1 / 10 ^ 16) by (apply Rdiv_lt_0_compat; lra); lra).
  induction left as [|left IH]; intros k d o q EA K L; [lia|].
  assert (K' : (k < 27)%nat) by (destruct (Nat.eq_dec k 27) as [->|]; [exfalso; exact (early_end s eps d o q PS E EA)|lia]).
  destruct EA as (Oq & SS & U0 & U1 & Z). cbn [qr_loop Nat.eqb]. unfold qr_step. cbn [Nat.sub Nat.add Nat.ltb Nat.leb v3_get v2_get bind].
  destruct d as [d0 d1 d2], o as [o0 o1]. cbn [vx vy vz px py] in *.
  assert (N0 : o0 <> 0). { intros ->. rewrite Rabs_R0 in U0. pose proof (Rabs_pos d0). pose proof (Rabs_pos d1). nra. }
  assert (N1 : o1 <> 0). { intros ->. rewrite Rabs_R0 in U1. pose proof (Rabs_pos d2). pose proof (Rabs_pos d1). nra. }
  destruct (chase_spec (d0 - wilkinson_shift d1 d2 o1) d0 d1 d2 o0 o1 q Oq) as (d' & o' & q' & CH & Oq' & Q).
  cbn [o_sub R_ops]. rewrite CH. cbn [bind]. rewrite coupling_1. cbn [bind fst snd o_leb R_ops]. rewrite <- Q in SS.
  destruct (step_rate d0 d1 d2 o0 o1 q d' o' q' N0 N1 CH) as (R1 & R3).
  destruct (Rleb _ _) eqn:EL.
  - cbn [bind]. destruct (delimit_1 d' o' eps) as [->|(-> & _)]; cbn [bind];
      (destruct (Nat.eqb left 0) eqn:EZ; [apply Nat.eqb_eq in EZ; lia|]);
      apply late_conv; try lra; try lia; unfold late; auto.
  - cbn [bind]. destruct (delimit_cases d' o' eps 2 ltac:(auto) ltac:(lra)) as (start & fin & o'' & D & HC).
    rewrite D. cbn [bind]. destruct (Nat.eqb left 0) eqn:EZ; [apply Nat.eqb_eq in EZ; lia|].
    destruct HC as [HC|(-> & -> & ->)]; [apply late_conv; try lra; try lia; exact HC|].
    apply (IH (S k)); [|lia|lia]. destruct (delimit_2_strict d' o' eps D ltac:(lra)) as (V0 & V1).
    split; [exact Oq'|]. split; [exact SS|]. split; [exact V0|]. split; [exact V1|].
    destruct (mdev_tri q (mkV3 d0 d1 d2) (mkV2 o0 o1) Oq) as (MD & _). rewrite <- Q, <- SS in MD. rewrite <- MD in R3.
    pose proof (dev_nonneg (mkV3 d0 d1 d2) (mkV2 o0 o1)) as DN. rewrite <- MD in DN. cbn [px py] in DN.
    pose proof (sq_pos o0 N0). pose proof (sq_pos o1 N1). assert (M0 : 0 < mdev s) by lra.
    assert (ZP : 0 <= zz (mkV2 o0 o1)) by (unfold zz; apply Rmult_le_pos; [apply sq_nonneg|apply sq_nonneg]).
    assert (ZP' : 0 <= zz o') by (unfold zz; apply Rmult_le_pos; [apply sq_nonneg|apply sq_nonneg]).
    set (z := zz (mkV2 o0 o1)) in *. set (z' := zz o') in *. set (e := mdev s) in *. clearbody z z' e. clear - Z R1 R3 M0 ZP ZP'.
    assert (C0 : 0 < e * e * e) by (repeat apply Rmult_lt_0_compat; assumption). set (e3 := e * e * e) in *. clearbody e3.
    assert (I3 : 0 < / e3) by now apply Rinv_0_lt_compat.
    assert (YN : 13824 * z' * / e3 <= ybound (S k)).
    { apply (ybound_next k (13824 * z * / e3)).
      - repeat apply Rmult_le_pos; lra.
      - repeat apply Rmult_le_pos; lra.
      - apply (Rmult_le_reg_r e3); [exact C0|]. rewrite Rmult_assoc, Rinv_l by lra. lra.
      - replace (8 / 27 * (13824 * z * / e3)) with (13824 * (8 / 27 * z) * / e3) by ring. apply Rmult_le_compat_r; lra.
      - apply (Rmult_le_reg_r (e3 * e3 * e3 * e3)); [repeat apply Rmult_lt_0_compat; assumption|].
        replace (13824 * z' * / e3 * (13824 * z' * / e3) * (13824 * z' * / e3) * (e3 * e3 * e3 * e3)) with (13824 * 13824 * 13824 * (z' * z' * z' * e3)) by (field; lra).
        replace (13824 * z * / e3 * (13824 * z * / e3) * (13824 * z * / e3) * (13824 * z * / e3) * (e3 * e3 * e3 * e3)) with (13824 * 13824 * 13824 * (24 * 24 * 24 * (z * z * z * z))) by (field; lra).
        apply Rmult_le_compat_l; lra. }
    apply (Rmult_le_compat_r e3) in YN; [|lra]. rewrite Rmult_assoc, Rinv_l in YN by lra. lra.
Qed.

(** ** The eigenvectors and the decomposition *)
Lemma zz_start d o : 13824 * zz o <= ybound 0 * (dev d o * dev d o * dev d o).
Proof.
  pose proof (dev_nonneg d o) as D. set (x := px o * px o) in *. set (y := py o * py o) in *.
  assert (X : 0 <= x) by apply sq_nonneg. assert (Y : 0 <= y) by apply sq_nonneg.
  unfold zz. fold x y. clearbody x y. set (e := dev d o) in *. clearbody e.
  change (ybound 0) with (256 * (8 / 27) ^ 0). cbn [pow].
  pose proof (amgm (y / 2) x ltac:(lra) X) as G. pose proof (cube_le (2 * (x + y)) e ltac:(lra) D) as CE.
  replace (2 * (y / 2) + x) with (x + y) in G by field.
  assert (27 * (y * y * x) <= 4 * ((x + y) * (x + y) * (x + y))) by lra.
  assert (8 * ((x + y) * (x + y) * (x + y)) <= e * e * e) by lra. lra.
Qed.
Lemma loop_conv s eps d o q n : psd s -> 1 / 10 ^ 16 <= eps -> (29 <= n)%nat -> orthogonal q -> s = sim q (tri d o) ->
  exists start fin o' r, delimit_subproblem d o 2 eps = Some (start, fin, o') /\ qr_loop eps n start fin (d, o', q) = Some (Some r).
Proof.
  intros PS E N Oq SS. assert (E0 : 0 < eps) by (pose proof (pow_lt 10 16 ltac:(lra)) as P; assert (0 < 1 / 10 ^ 16) by (apply Rdiv_lt_0_compat; lra); lra).
  destruct (delimit_cases d o eps 2 ltac:(auto) ltac:(lra)) as (start & fin & o' & D & HC).
  destruct HC as [HC|(-> & -> & ->)].
  - destruct (late_conv eps n start fin d o' q ltac:(lra) HC ltac:(lia)) as (r & R). do 4 eexists. split; [exact D|exact R].
  - destruct (delimit_2_strict d o eps D ltac:(lra)) as (V0 & V1).
    assert (EA : early s eps 0 d o q).
    { split; [exact Oq|]. split; [exact SS|]. split; [exact V0|]. split; [exact V1|].
      destruct (mdev_tri q d o Oq) as (MD & _). rewrite <- SS in MD. rewrite MD. apply zz_start. }
    destruct (early_conv s eps PS E n 0 d o q EA ltac:(lia) ltac:(lia)) as (r & R). do 4 eexists. split; [exact D|exact R].
Qed.
Lemma eigen_conv m eps n : mtr m = m -> psd m -> 1 / 10 ^ 16 <= eps -> (29 <= n)%nat -> exists r, symmetric_eigen m eps n = Some (Some r).
Proof.
  intros Sy PS E N. unfold symmetric_eigen. cbn [o_eqb o_zero R_ops]. set (a := camax m) in *.
  assert (K : exists m', (if negb (Reqb a 0) then m33_unscale m a else m) = m' /\ mtr m' = m' /\ psd m').
  { destruct (Reqb a 0) eqn:EA; cbn [negb]; [now exists m|]. eexists. split; [reflexivity|].
    assert (A0 : 0 <= a) by (unfold a; destruct m; apply (fold_amax _ 0 (Rle_refl 0))).
    assert (AP : 0 < a) by (destruct (Req_dec a 0) as [Z|Z]; [apply Reqb_true in Z; congruence|lra]).
    assert (Ia : 0 < / a) by now apply Rinv_0_lt_compat. rewrite unscale_R. split.
    - rewrite <- Sy at 2. generalize (/ a). intros s. destruct m. vring.
    - intros v. rewrite mv_mscl. specialize (PS v). replace (vdot v (vscl (/ a) (mv m v))) with (/ a * vdot v (mv m v)) by (generalize (mv m v) (/ a); intros; vring).
      apply Rmult_le_pos; lra. }
  destruct K as (m' & -> & Sy' & PS'). destruct (tridiagonalize_spec m' Sy') as (q & d & o & -> & Oq & Q).
  destruct (loop_conv m' eps d o q n PS' E N Oq Q) as (start & fin & o' & [vals v] & -> & R). cbn [bind]. rewrite R. cbn [bind]. eexists. reflexivity.
Qed.
Lemma order_total_01 l b v : exists r, order_columns l 0 1 b v = Some r.
Proof. unfold order_columns. destruct l; rewrite ?swap_01; eexists; reflexivity. Qed.
Lemma order_total_02 l b v : exists r, order_columns l 0 2 b v = Some r.
Proof. unfold order_columns. destruct l; rewrite ?swap_02; eexists; reflexivity. Qed.
Lemma order_total_12 l b v : exists r, order_columns l 1 2 b v = Some r.
Proof. unfold order_columns. destruct l; rewrite ?swap_12; eexists; reflexivity. Qed.
Lemma svd_conv m eps n : 1 / 10 ^ 16 <= eps -> (29 <= n)%nat -> exists d, svd_ordered3 m true true eps n = Some (Some d).
Proof.
  intros E N. destruct (eigen_conv (mm (mtr m) m) eps n) as ([vals v] & EQ); try assumption.
  - rewrite mtr_mm, mtr_mtr. reflexivity.
  - intros v. rewrite <- dot_gram. destruct (mv m v). ru_spec. nra.
  - unfold svd_ordered3. rewrite m33_transpose_R, m33_mul_R, EQ. cbn [bind].
    rewrite m33_mul_R, col_norm_0, col_norm_1, col_norm_2. cbn [bind].
    match goal with |- context [order_columns ?l 0 1 ?b ?v] => destruct (order_total_01 l b v) as ([b1 v1] & ->) end. cbn [bind fst snd].
    match goal with |- context [match ?x with pair _ _ => _ end] => destruct x as [r0 r1] end.
    match goal with |- context [order_columns ?l 0 2 ?b ?v] => destruct (order_total_02 l b v) as ([b2 v2] & ->) end. cbn [bind fst snd].
    match goal with |- context [match ?x with pair _ _ => _ end] => destruct x as [r2 r3] end.
    match goal with |- context [order_columns ?l 1 2 ?b ?v] => destruct (order_total_12 l b v) as ([b3 v3] & ->) end. cbn [bind fst snd].
    eexists. reflexivity.
Qed.
