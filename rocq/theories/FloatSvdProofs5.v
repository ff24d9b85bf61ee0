(** * FloatSvdProofs5.v - rounding errors of the 2x2 step and of the negligibility test (C110) *)

From Coq Require Import ZArith Reals List Bool Lra Lia Psatz.
From Flocq Require Import Core BinarySingleNaN.
From Verif Require Import Scalar Linalg Householder RayIntersection SymEigen Spec SpecGeom SpecIsect SpecFloatErr SpecFloatIsect RealBase VecLemmas ExtrinsicsProofs IsectBase IsectProofs SpectralProofs TriProofs FloatBase FloatRound FloatErrProofs FloatApprox FloatDirProofs FloatIsectProofs4 FloatQRProofs QRProofs
  SymEigenProofs SymEigenProofs2 SymEigenProofs4 FloatSvdProofs FloatSvdProofs2 FloatSvdProofs3 FloatSvdProofs4.
Import ListNotations.
Local Open Scope R_scope.

(** the entry beside the diagonal after a rotation along (x, b) *)
Lemma rotated_res a b d x c s : c * c + s * s = 1 -> c * b = s * x ->
  (x * x + b * b) * (b * (c * c - s * s) - c * s * (a - d)) = b * (x * x - (a - d) * x - b * b).
Proof.
  intros C Y.
  assert (C2 : c * c * (x * x + b * b) = x * x).
  { replace (c * c * (x * x + b * b)) with (c * c * (x * x) + (c * b) * (c * b)) by ring. rewrite Y.
    replace (c * c * (x * x) + s * x * (s * x)) with ((c * c + s * s) * (x * x)) by ring. rewrite C. ring. }
  assert (S2 : s * s * (x * x + b * b) = b * b).
  { replace (s * s * (x * x + b * b)) with ((s * x) * (s * x) + s * s * (b * b)) by ring. rewrite <- Y.
    replace (c * b * (c * b) + s * s * (b * b)) with ((c * c + s * s) * (b * b)) by ring. rewrite C. ring. }
  assert (CS : c * s * (x * x + b * b) = x * b).
  { replace (c * s * (x * x + b * b)) with (c * x * (s * x) + s * b * (c * b)) by ring.
    transitivity (c * x * (c * b) + s * b * (s * x)); [rewrite Y; ring|].
    replace (c * x * (c * b) + s * b * (s * x)) with ((c * c + s * s) * (x * b)) by ring. rewrite C. ring. }
  replace ((x * x + b * b) * (b * (c * c - s * s) - c * s * (a - d)))
    with (b * (c * c * (x * x + b * b)) - b * (s * s * (x * x + b * b)) - (c * s * (x * x + b * b)) * (a - d)) by ring.
  rewrite C2, S2, CS. ring.
Qed.
Lemma res_bound a b d x r h c s : c * c + s * s = 1 -> c * b = s * x -> Rabs (x - ((a - d) * / 2 + r)) <= 5e-15 -> r * r = (a - d) * / 2 * ((a - d) * / 2) + b * b ->
  0 <= r <= 4.6 -> 0.97e-7 <= h -> h * h = x * x + b * b -> Rabs (b * (c * c - s * s) - c * s * (a - d)) <= 4.9e-7.
Proof.
  intros C Y D R (R0 & R1) H0 HH. pose proof (rotated_res a b d x c s C Y) as E. rewrite <- HH in E. set (off := b * (c * c - s * s) - c * s * (a - d)) in *.
  set (e := x - ((a - d) * / 2 + r)) in *.
  assert (P : x * x - (a - d) * x - b * b = e * (2 * r + e)) by (unfold e; replace (b * b) with (r * r - (a - d) * / 2 * ((a - d) * / 2)) by lra; field).
  rewrite P in E. assert (BH : Rabs b <= h) by (apply Rsqr_incr_0_var; [|lra]; unfold Rsqr; rewrite <- Rabs_mult, Rabs_pos_eq by nra; nra).
  assert (PB : Rabs (e * (2 * r + e)) <= 4.65e-14).
  { rewrite Rabs_mult. assert (Rabs (2 * r + e) <= 9.21) by (eapply Rle_trans; [apply Rabs_triang|]; rewrite Rabs_pos_eq by lra; lra).
    pose proof (Rabs_pos e). pose proof (Rabs_pos (2 * r + e)). assert (Rabs e * Rabs (2 * r + e) <= 5e-15 * 9.21) by (apply Rmult_le_compat; lra). lra. }
  assert (L : h * h * Rabs off <= h * 4.65e-14).
  { rewrite <- (Rabs_pos_eq (h * h)) by nra. rewrite <- Rabs_mult, E, Rabs_mult. apply Rmult_le_compat; try apply Rabs_pos; assumption. }
  assert (L2 : h * Rabs off <= 4.65e-14) by (apply (Rmult_le_reg_l h); [lra|]; lra).
  pose proof (Rabs_pos off). assert (0.97e-7 * Rabs off <= h * Rabs off) by (apply Rmult_le_compat_r; lra). lra.
Qed.

Section Explicit.
Context {T : Type} {O : Ops T}.
Lemma coupling0_e d0 d1 d2 o0 o1 eps : coupling (mkV3 d0 d1 d2) (mkV2 o0 o1) eps 0 = Some (o_abs o0, o_mul eps (o_add (o_abs d1) (o_abs d0))).
Proof. reflexivity. Qed.
Lemma coupling1_e d0 d1 d2 o0 o1 eps : coupling (mkV3 d0 d1 d2) (mkV2 o0 o1) eps 1 = Some (o_abs o1, o_mul eps (o_add (o_abs d2) (o_abs d1))).
Proof. reflexivity. Qed.
End Explicit.

Section F64.
Variables gsin gcos : binary_float 53 1024 -> binary_float 53 1024.
Local Notation F := (binary_float 53 1024).
Local Hint Extern 0 (Ops (binary_float 53 1024)) => exact (B_ops 53 1024 f64_prec f64_emax gsin gcos) : typeclass_instances.
Local Notation flr := (fl 53 1024).
Local Notation nmul := (near_mul gsin gcos).
Local Notation nadd := (near_add gsin gcos).
Local Notation nsub := (near_sub gsin gcos).

Lemma abs_sub_le x y a b : Rabs x <= a -> Rabs y <= b -> Rabs (x - y) <= a + b.
Proof. intros A B. replace (x - y) with (x + - y) by ring. eapply Rle_trans; [apply Rabs_triang|]. rewrite Rabs_Ropp. lra. Qed.
Lemma abs_add_le x y a b : Rabs x <= a -> Rabs y <= b -> Rabs (x + y) <= a + b.
Proof. intros A B. eapply Rle_trans; [apply Rabs_triang|]. lra. Qed.
Lemma abs_half x a : Rabs x <= 2 * a -> Rabs (x * / 2) <= a.
Proof. intros A. rewrite Rabs_mult, (Rabs_pos_eq (/ 2)) by lra. lra. Qed.
Lemma hyp_lip x y z : Rabs (sqrt (x * x + z * z) - sqrt (y * y + z * z)) <= Rabs (x - y).
Proof.
  set (h := sqrt (x * x + z * z)). set (k := sqrt (y * y + z * z)). assert (Hh : h * h = x * x + z * z) by (apply sqrt_sqrt; nra). assert (Kk : k * k = y * y + z * z) by (apply sqrt_sqrt; nra).
  assert (h0 : 0 <= h) by apply sqrt_pos. assert (k0 : 0 <= k) by apply sqrt_pos.
  apply Rsqr_le_abs_0. unfold Rsqr. replace ((h - k) * (h - k)) with (h * h + k * k - 2 * (h * k)) by ring. rewrite Hh, Kk.
  assert (HK : 0 <= h * k) by (apply Rmult_le_pos; assumption). assert (x * y + z * z <= h * k); [|lra]. apply Rle_trans with (1 := Rle_abs _). apply Rsqr_incr_0_var; [|exact HK]. rewrite <- Rsqr_abs. unfold Rsqr.
  replace (h * k * (h * k)) with (h * h * (k * k)) by ring. rewrite Hh, Kk. pose proof (Rle_0_sqr (x * z - y * z)) as P. unfold Rsqr in P. nra.
Qed.

(** a sum of two squares is found nonnegative *)
Lemma sum_sq_nonneg (x y : F) X Y : flr x X -> flr y Y -> Rabs X <= 10 -> Rabs Y <= 10 -> exists r, flr (o_add (o_mul x x) (o_mul y y)) r /\ 0 <= r.
Proof.
  intros FX FY LX LY. pose proof u64_le as U. pose proof (bpow_gt_0 radix2 (- (53))) as U0. pose proof tiny64_le as T. pose proof big64_ge as BG.
  assert (Q : forall (z : F) Z, flr z Z -> Rabs Z <= 10 -> exists r, flr (o_mul z z) r /\ 0 <= r <= 101).
  { intros z Z FZ LZ. assert (ZZ : 0 <= Z * Z <= 100). { split; [nra|]. rewrite <- (Rabs_pos_eq (Z * Z)) by nra. rewrite Rabs_mult. pose proof (Rabs_pos Z). nra. }
    destruct (mul_err 53 1024 f64_prec f64_emax gsin gcos z z Z Z 100 FZ FZ) as (r & (R1 & R2) & _ & R3); [lra|rewrite Rabs_pos_eq; lra|lra|].
    exists r. split; [now split|]. apply Rabs_le_inv in R3. split; [|lra].
    assert (B : Rabs (rnd 53 1024 (Z * Z)) < bpow radix2 1024). { apply (Rle_lt_trans _ ((1 + bpow radix2 (- (53))) * 100)); [|lra]. destruct (rnd_near 53 1024 f64_prec (Z * Z) 100) as (_ & G); [lra|rewrite Rabs_pos_eq; lra|exact G]. }
    destruct (fl_mul 53 1024 f64_prec f64_emax gsin gcos z z Z Z FZ FZ B) as (_ & E). rewrite <- R2, E. apply (rnd_ge_fmt 53 1024 f64_prec); [apply fmt_0|lra]. }
  destruct (Q x X FX LX) as (r & FR & PR). destruct (Q y Y FY LY) as (t & FT & PT). clear Q.
  assert (B : Rabs (rnd 53 1024 (r + t)) < bpow radix2 1024). { apply (Rle_lt_trans _ ((1 + bpow radix2 (- (53))) * 300)); [|lra]. destruct (rnd_near 53 1024 f64_prec (r + t) 300) as (_ & G); [lra|rewrite Rabs_pos_eq; lra|exact G]. }
  exists (rnd 53 1024 (r + t)). split; [exact (fl_add 53 1024 f64_prec f64_emax gsin gcos _ _ _ _ FR FT B)|]. apply (rnd_ge_fmt 53 1024 f64_prec); [apply fmt_0|lra].
Qed.

Lemma eig2_f (a b d : F) : is_finite a = true -> is_finite b = true -> is_finite d = true -> Rabs (B2R a) <= 3.2 -> Rabs (B2R b) <= 3.2 -> Rabs (B2R d) <= 3.2 ->
  exists v1 v2 x r, eigvals_2x2 a b b d = Some (v1, v2) /\ is_finite v1 = true /\ is_finite v2 = true /\ Rabs (B2R v1) <= 10 /\
    flr (o_sub v1 d) x /\ 0 <= r <= 4.6 /\ Rabs x <= 8 /\
    r * r = (B2R a - B2R d) * / 2 * ((B2R a - B2R d) * / 2) + B2R b * B2R b /\ Rabs (x - ((B2R a - B2R d) * / 2 + r)) <= 5e-15.
Proof.
  intros Fa Fb Fd La Lb Ld. pose proof (fin_fl _ Fb) as Gb. apply near_exact in Fa. apply near_exact in Fb. apply near_exact in Fd.
  set (A := B2R a) in *. set (B := B2R b) in *. set (D := B2R d) in *.
  assert (LAD : Rabs (A - D) <= 6.4) by (eapply Rle_trans; [apply (abs_sub_le _ _ _ _ La Ld)|lra]).
  assert (LAS : Rabs (A + D) <= 6.4) by (eapply Rle_trans; [apply (abs_add_le _ _ _ _ La Ld)|lra]).
  assert (N1 : near 7.2e-16 (o_sub a d) (A - D)) by (apply (nsub 0 0 _ 6.4 _ _ _ _ Fa Fd); lra).
  assert (N2 : near 7.2e-16 (o_mul (o_sub a d) (o_lit 1 (-1))) ((A - D) * / 2)).
  { apply (nmul 7.2e-16 0 _ 6.4 (/ 2) 3.201 _ _ _ _ N1 (near_half gsin gcos)); try lra. rewrite Rabs_pos_eq; lra. }
  assert (N3 : near 7.2e-16 (o_add a d) (A + D)) by (apply (nadd 0 0 _ 6.4 _ _ _ _ Fa Fd); lra).
  assert (N4 : near 7.2e-16 (o_mul (o_add a d) (o_lit 1 (-1))) ((A + D) * / 2)).
  { apply (nmul 7.2e-16 0 _ 6.4 (/ 2) 3.201 _ _ _ _ N3 (near_half gsin gcos)); try lra. rewrite Rabs_pos_eq; lra. }
  pose proof (abs_half (A - D) 3.2 ltac:(lra)) as LW. pose proof (abs_half (A + D) 3.2 ltac:(lra)) as LH.
  unfold eigvals_2x2. set (w := o_mul (o_sub a d) (o_lit 1 (-1))) in *. set (ht := o_mul (o_add a d) (o_lit 1 (-1))) in *. clearbody w ht. set (W := (A - D) * / 2) in *.
  assert (FW : flr w (B2R w)) by (split; [apply N2|reflexivity]). pose proof (near_val _ _ _ N2) as DW. pose proof (abs_le_near _ _ _ _ DW LW) as LW'.
  destruct (sum_sq_nonneg b w B (B2R w) Gb FW) as (ds & Fds & Pds); [lra|lra|].
  replace (o_leb (o_zero : F) (o_add (o_mul b b) (o_mul w w))) with true.
  2: { symmetry. apply (fl_leb 53 1024 f64_prec f64_emax gsin gcos _ _ _ _ (fl_zero' 53 1024 f64_prec f64_emax gsin gcos) Fds). lra. }
  assert (HK : sqrt (B * B + B2R w * B2R w) <= 4.6) by (apply (hyp_le B (B2R w) 3.2 3.21); lra).
  destruct (hypot_f gsin gcos b w B (B2R w) Gb FW) as (h & Fh & Ph & Dh); [lra|]. set (K := sqrt (B * B + B2R w * B2R w)) in *.
  set (r := sqrt (W * W + B * B)). assert (R46 : 0 <= r <= 4.6) by (split; [apply sqrt_pos|apply (hyp_le W B 3.2 3.2); lra]).
  assert (RK : Rabs (K - r) <= 7.2e-16). { unfold K. rewrite (Rplus_comm (B * B)). unfold r. eapply Rle_trans; [apply hyp_lip|lra]. }
  assert (K0 : 0 <= K) by apply sqrt_pos.
  assert (HD : Rabs (h - K) <= 1.4e-15). { destruct (Rle_lt_dec 1e-60 K) as [G|G]; [specialize (Dh G); lra|]. apply Rabs_le. lra. }
  assert (N5 : near 2.12e-15 (o_sqrt (o_add (o_mul b b) (o_mul w w))) r).
  { apply (fl_near _ _ _ _ Fh). replace (h - r) with ((h - K) + (K - r)) by ring. eapply Rle_trans; [apply Rabs_triang|]. lra. }
  set (sd := o_sqrt (o_add (o_mul b b) (o_mul w w))) in *. clearbody sd.
  set (HT := (A + D) * / 2) in *. assert (LR : Rabs r <= 4.6) by (rewrite Rabs_pos_eq; lra).
  assert (N6 : near 3.75e-15 (o_add ht sd) (HT + r)).
  { apply (nadd 7.2e-16 2.12e-15 _ 7.81 _ _ _ _ N4 N5); [|lra|lra]. pose proof (abs_add_le _ _ _ _ LH LR). lra. }
  assert (N7 : near 3.75e-15 (o_sub ht sd) (HT - r)).
  { apply (nsub 7.2e-16 2.12e-15 _ 7.81 _ _ _ _ N4 N5); [|lra|lra]. pose proof (abs_sub_le _ _ _ _ LH LR). lra. }
  assert (LX : Rabs (HT + r - D) <= 7.8). { replace (HT + r - D) with (W + r) by (unfold HT, W; field). pose proof (abs_add_le _ _ _ _ LW LR). lra. }
  assert (N8 : near 5e-15 (o_sub (o_add ht sd) d) (HT + r - D)).
  { apply (nsub 3.75e-15 0 _ 7.81 _ _ _ _ N6 Fd); lra. }
  exists (o_add ht sd), (o_sub ht sd). destruct (near_fl _ _ _ N8) as (x & Fx & Dx). exists x, r. split; [reflexivity|]. split; [apply N6|]. split; [apply N7|].
  split. { pose proof (abs_le_near _ _ _ _ (near_val _ _ _ N6) (abs_add_le _ _ _ _ LH LR)). lra. }
  split; [exact Fx|]. split; [exact R46|]. split. { pose proof (abs_le_near _ _ _ _ Dx LX). lra. }
  split; [apply sqrt_sqrt; nra|]. fold W. replace (W + r) with (HT + r - D) by (unfold HT, W; field). exact Dx.
Qed.

Lemma follows_le s q t a b a' b' : follows s q t a b -> a <= a' -> b <= b' -> follows s q t a' b'.
Proof. intros (Q & (M & O & A) & B) H1 H2. exists Q. split; [split; [exact M|split; [exact O|eapply appr_le; eassumption]]|eapply appr_le; eassumption]. Qed.
Lemma follows_appr s q t t' a b e : follows s q t a b -> appr t t' e -> follows s q t' a (b + e).
Proof. intros (Q & QN & B) A. exists Q. split; [exact QN|]. eapply appr_trans; [exact B|]. apply appr_sim; [apply QN|exact A]. Qed.
Definition diagm (l : V3 R) : M33 R := tri l (mkV2 0 0).

Lemma two_f0 s q a b c (x o eps : F) A B D z X r e : qnear q a c -> c <= 0.5 -> flr x X -> flr o B -> flr eps e -> 0.99e-7 <= e <= 1.01e-7 ->
  Rabs X <= 8 -> Rabs B <= 3.2 -> Rabs (X - ((A - D) * / 2 + r)) <= 5e-15 -> r * r = (A - D) * / 2 * ((A - D) * / 2) + B * B -> 0 <= r <= 4.6 ->
  appr s (sim a (tri (mkV3 A D z) (mkV2 B 0))) b ->
  exists q' l, match givens_try_new x o eps with Some (c, s) => rotate_rows c s 0 q | None => Some q end = Some q' /\ follows s q' (diagm l) (c + 1.2e-14) (b + 5 * e).
Proof.
  intros QN Lc FX FB FE E1 LX LB DX RR R0 AP. assert (HL : sqrt (X * X + B * B) <= 9) by (apply (hyp_le X B 8 3.2); lra).
  destruct (givens_f gsin gcos x o eps X B e FX FB FE) as [(-> & HS)|(c0 & s0 & C & S & -> & CS & CY & HG & NC & NS & LC & LS & C2 & S2)]; [lra|lra| |].
  - exists q, (mkV3 A D z). split; [reflexivity|]. exists a. split; [destruct QN as (M & O & Q); split; [exact M|split; [exact O|apply (appr_le _ _ c); [lra|exact Q]]]|].
    apply (appr_le _ _ (b + 1.001 * e)); [lra|]. eapply appr_trans; [exact AP|]. apply appr_sim; [apply QN|]. eapply appr_le; [|apply appr_off0].
    rewrite Rminus_0_r. destruct (abs_le_hyp X B). lra.
  - destruct (qnear_0 gsin gcos c0 s0 C S q a c QN ltac:(lra) NC NS CS LC LS) as (q' & E & QN'). rewrite E.
    exists q', (mkV3 (C * C * A + 2 * (C * S) * B + S * S * D) (S * S * A - 2 * (C * S) * B + C * C * D) z). split; [reflexivity|].
    exists (mm a (rot01 C S)). split; [exact QN'|]. pose proof (rot01_orth C S CS) as OG.
    rewrite <- (sim_mm a (mtr (rot01 C S))) in AP by (now apply orthogonal_mtr). rewrite mtr_mtr in AP.
    eapply appr_trans; [exact AP|]. apply appr_sim; [apply QN'|].
    apply (appr_le _ _ (Rabs ((B * (C * C - S * S) - C * S * (A - D)) - 0))).
    { rewrite Rminus_0_r. pose proof (res_bound A B D X r (sqrt (X * X + B * B)) C S CS CY DX RR R0 ltac:(lra) ltac:(apply sqrt_sqrt; nra)). lra. }
    match goal with |- appr ?m _ _ => replace m with (tri (mkV3 (C * C * A + 2 * (C * S) * B + S * S * D) (S * S * A - 2 * (C * S) * B + C * C * D) z) (mkV2 (B * (C * C - S * S) - C * S * (A - D)) 0)) end; [apply appr_off0|].
    clear. unfold tri, rot01. cbn [vx vy vz px py]. apply M33_eq; ru_spec; ring.
Qed.
Lemma two_f1 s q a b c (x o eps : F) A B D z X r e : qnear q a c -> c <= 0.5 -> flr x X -> flr o B -> flr eps e -> 0.99e-7 <= e <= 1.01e-7 ->
  Rabs X <= 8 -> Rabs B <= 3.2 -> Rabs (X - ((A - D) * / 2 + r)) <= 5e-15 -> r * r = (A - D) * / 2 * ((A - D) * / 2) + B * B -> 0 <= r <= 4.6 ->
  appr s (sim a (tri (mkV3 z A D) (mkV2 0 B))) b ->
  exists q' l, match givens_try_new x o eps with Some (c, s) => rotate_rows c s 1 q | None => Some q end = Some q' /\ follows s q' (diagm l) (c + 1.2e-14) (b + 5 * e).
Proof.
  intros QN Lc FX FB FE E1 LX LB DX RR R0 AP. assert (HL : sqrt (X * X + B * B) <= 9) by (apply (hyp_le X B 8 3.2); lra).
  destruct (givens_f gsin gcos x o eps X B e FX FB FE) as [(-> & HS)|(c0 & s0 & C & S & -> & CS & CY & HG & NC & NS & LC & LS & C2 & S2)]; [lra|lra| |].
  - exists q, (mkV3 z A D). split; [reflexivity|]. exists a. split; [destruct QN as (M & O & Q); split; [exact M|split; [exact O|apply (appr_le _ _ c); [lra|exact Q]]]|].
    apply (appr_le _ _ (b + 1.001 * e)); [lra|]. eapply appr_trans; [exact AP|]. apply appr_sim; [apply QN|]. eapply appr_le; [|apply appr_off1].
    rewrite Rminus_0_r. destruct (abs_le_hyp X B). lra.
  - destruct (qnear_1 gsin gcos c0 s0 C S q a c QN ltac:(lra) NC NS CS LC LS) as (q' & E & QN'). rewrite E.
    exists q', (mkV3 z (C * C * A + 2 * (C * S) * B + S * S * D) (S * S * A - 2 * (C * S) * B + C * C * D)). split; [reflexivity|].
    exists (mm a (rot12 C S)). split; [exact QN'|]. pose proof (rot12_orth C S CS) as OG.
    rewrite <- (sim_mm a (mtr (rot12 C S))) in AP by (now apply orthogonal_mtr). rewrite mtr_mtr in AP.
    eapply appr_trans; [exact AP|]. apply appr_sim; [apply QN'|].
    apply (appr_le _ _ (Rabs ((B * (C * C - S * S) - C * S * (A - D)) - 0))).
    { rewrite Rminus_0_r. pose proof (res_bound A B D X r (sqrt (X * X + B * B)) C S CS CY DX RR R0 ltac:(lra) ltac:(apply sqrt_sqrt; nra)). lra. }
    match goal with |- appr ?m _ _ => replace m with (tri (mkV3 z (C * C * A + 2 * (C * S) * B + S * S * D) (S * S * A - 2 * (C * S) * B + C * C * D)) (mkV2 0 (B * (C * C - S * S) - C * S * (A - D)))) end; [apply appr_off1|].
    clear. unfold tri, rot12. cbn [vx vy vz px py]. apply M33_eq; ru_spec; ring.
Qed.

(** the threshold of the negligibility test *)
Lemma thresh_f (eps dn dm : F) e N M : flr eps e -> 0.99e-7 <= e <= 1.01e-7 -> flr dn N -> flr dm M -> Rabs N <= 10 -> Rabs M <= 10 ->
  exists c, flr (o_mul eps (o_add (o_abs dn) (o_abs dm))) c /\ 0 <= c /\ c <= 1.01 * e * (Rabs N + Rabs M) + 1e-100 /\ (1e-50 <= Rabs N + Rabs M -> 0.99 * e * (Rabs N + Rabs M) <= c).
Proof.
  intros FE E1 FN FM LN LM. pose proof u64_le as U. pose proof (bpow_gt_0 radix2 (- (53))) as U0. pose proof tiny64_le as TI. pose proof big64_ge as BG.
  apply (fl_abs 53 1024 f64_prec f64_emax gsin gcos) in FN. apply (fl_abs 53 1024 f64_prec f64_emax gsin gcos) in FM.
  pose proof (Rabs_pos N). pose proof (Rabs_pos M). set (V := Rabs N + Rabs M) in *. assert (V0 : 0 <= V <= 20) by (unfold V; lra).
  assert (K1 : Rabs (rnd 53 1024 V) < bpow radix2 1024) by (destruct (rnd_near 53 1024 f64_prec V 20) as (_ & G); [lra|rewrite Rabs_pos_eq; lra|]; eapply Rle_lt_trans; [exact G|]; lra).
  pose proof (fl_add 53 1024 f64_prec f64_emax gsin gcos _ _ _ _ FN FM K1) as FV. fold V in FV.
  assert (S0 : 0 <= rnd 53 1024 V) by (apply (rnd_ge_fmt 53 1024 f64_prec); [apply fmt_0|lra]).
  assert (S1 : rnd 53 1024 V <= 1.001 * V + 1e-120).
  { destruct (rnd_near 53 1024 f64_prec V (V + 1e-130)) as (G & _); [lra|rewrite Rabs_pos_eq; lra|]. apply Rabs_le_inv in G. nra. }
  assert (S2 : 1e-50 <= V -> 0.999 * V <= rnd 53 1024 V).
  { intros HV. destruct (rnd_near 53 1024 f64_prec V V) as (G & _); [lra|rewrite Rabs_pos_eq; lra|]. apply Rabs_le_inv in G. nra. }
  set (W := rnd 53 1024 V) in *. assert (P0 : 0 <= e * W) by (apply Rmult_le_pos; lra). assert (P1 : e * W <= 1e-5) by (assert (e * W <= 1.01e-7 * 25) by (apply Rmult_le_compat; lra); lra).
  assert (K2 : Rabs (rnd 53 1024 (e * W)) < bpow radix2 1024) by (destruct (rnd_near 53 1024 f64_prec (e * W) 20) as (_ & G); [lra|rewrite Rabs_pos_eq; lra|]; eapply Rle_lt_trans; [exact G|]; lra).
  exists (rnd 53 1024 (e * W)). split; [exact (fl_mul 53 1024 f64_prec f64_emax gsin gcos _ _ _ _ FE FV K2)|].
  split; [apply (rnd_ge_fmt 53 1024 f64_prec); [apply fmt_0|exact P0]|].
  assert (EW : e * W <= 1.001 * (e * V) + 1e-120) by (assert (e * W <= e * (1.001 * V + 1e-120)) by (apply Rmult_le_compat_l; lra); nra).
  assert (EV : 0 <= e * V) by (apply Rmult_le_pos; lra).
  split.
  - destruct (rnd_near 53 1024 f64_prec (e * W) (e * W + 1e-130)) as (G & _); [lra|rewrite Rabs_pos_eq; lra|]. apply Rabs_le_inv in G. nra.
  - intros HV. specialize (S2 HV). assert (0.999 * (e * V) <= e * W) by (assert (e * (0.999 * V) <= e * W) by (apply Rmult_le_compat_l; lra); lra).
    assert (0.99e-7 * 1e-50 <= e * V) by (apply Rmult_le_compat; lra).
    destruct (rnd_near 53 1024 f64_prec (e * W) (e * W)) as (G & _); [lra|rewrite Rabs_pos_eq; lra|]. apply Rabs_le_inv in G. nra.
Qed.
End F64.
