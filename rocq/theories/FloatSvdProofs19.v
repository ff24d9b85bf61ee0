(** * FloatSvdProofs19.v - one step of the QR iteration in double precision reduces o0^2 o1^4 (C113) *)

From Coq Require Import ZArith Reals List Bool Lra Lia Psatz.
From Flocq Require Import Core BinarySingleNaN.
From Verif Require Import Scalar Linalg Householder RayIntersection SymEigen Spec SpecGeom SpecIsect SpecFloatErr SpecFloatIsect RealBase VecLemmas ExtrinsicsProofs IsectBase IsectProofs SpectralProofs TriProofs FloatBase FloatRound FloatErrProofs FloatApprox FloatDirProofs FloatIsectProofs4 FloatQRProofs QRProofs
  SymEigenProofs SymEigenProofs2 SymEigenProofs4 FloatSvdProofs FloatSvdProofs2 FloatSvdProofs3 FloatSvdProofs4 FloatSvdProofs17 FloatSvdProofs18.
Import ListNotations.
Local Open Scope R_scope.

Definition potential (o : V2 R) : R := px o * px o * (py o * py o * (py o * py o)).

Lemma hyp_bound x y b : Rabs x <= 13 * b -> Rabs y <= 2 * b -> 0 <= b -> sqrt (x * x + y * y) <= 14 * b.
Proof. intros X Y B. apply (hyp_le x y (13 * b) (2 * b)); [exact X|exact Y|nra|lra]. Qed.

Section F64.
Variables gsin gcos : binary_float 53 1024 -> binary_float 53 1024.
Local Notation F := (binary_float 53 1024).
Local Hint Extern 0 (Ops (binary_float 53 1024)) => exact (B_ops 53 1024 f64_prec f64_emax gsin gcos) : typeclass_instances.
Local Notation flr := (fl 53 1024).
Local Notation nmul := (near_mul gsin gcos).
Local Notation nadd := (near_add gsin gcos).
Local Notation nsub := (near_sub gsin gcos).

Lemma chase_V (x d0 d1 d2 o0 o1 : F) X al1 al2 q d' o' q' : flr x X ->
  is_finite d0 = true -> is_finite d1 = true -> is_finite d2 = true -> is_finite o0 = true -> is_finite o1 = true ->
  Rabs (B2R d0) <= 3.2 -> Rabs (B2R d1) <= 3.2 -> Rabs (B2R d2) <= 3.2 -> 4e-8 <= Rabs (B2R o0) <= 1.6 -> 4e-8 <= Rabs (B2R o1) <= 1.6 ->
  al1 * al2 = B2R o1 * B2R o1 -> Rabs al2 <= Rabs (B2R o1) ->
  Rabs (B2R d1 - B2R d0 + X - al1) <= 1e-14 -> Rabs (B2R d2 - B2R d0 + X - al2) <= 1e-14 ->
  1e-14 * 1e-14 * Rabs (B2R o0) <= 1e-6 * (Rabs (B2R o1) * Rabs (B2R o1) * Rabs (B2R o1)) ->
  chase 0 2 2 0 (mkV2 x o0) (mkV3 d0 d1 d2, mkV2 o0 o1, q) = Some (d', o', q') ->
  potential (v2real o') <= 0.31 * potential (v2real (mkV2 o0 o1)).
Proof.
  intros FX Fd0 Fd1 Fd2 Fo0 Fo1 Ld0 Ld1 Ld2 (Lo0 & Uo0) (Lo1 & Uo1) AL A2 D1 D2 HR. rewrite chase_e.
  pose proof (fin_fl _ Fo0) as Go0. apply near_exact in Fd0. apply near_exact in Fd1. apply near_exact in Fd2. apply near_exact in Fo0. apply near_exact in Fo1.
  set (rd0 := B2R d0) in *. set (rd1 := B2R d1) in *. set (rd2 := B2R d2) in *. set (b1 := B2R o0) in *. set (b2 := B2R o1) in *.
  assert (Nb1 : b1 <> 0) by (intros Z; rewrite Z, Rabs_R0 in Lo0; lra).
  set (a1 := rd1 - rd0 + X) in *. set (a2 := rd2 - rd0 + X) in *.
  assert (La2 : Rabs a2 <= 1.61). { pose proof (Rabs_triang (a2 - al2) al2) as TR. replace (a2 - al2 + al2) with a2 in TR by ring. lra. }
  assert (La1 : Rabs a1 <= 8.1).
  { replace a1 with ((rd1 - rd2) + a2) by (unfold a1, a2; ring). pose proof (Rabs_triang (rd1 - rd2) a2) as TR. pose proof (Rabs_triang rd1 (- rd2)) as TR2. rewrite Rabs_Ropp in TR2. unfold Rminus in *. lra. }
  assert (LX : Rabs X <= 8.1).
  { replace X with ((rd0 - rd2) + a2) by (unfold a2; ring). pose proof (Rabs_triang (rd0 - rd2) a2) as TR. pose proof (Rabs_triang rd0 (- rd2)) as TR2. rewrite Rabs_Ropp in TR2. unfold Rminus in *. lra. }
  destruct (abs_le_hyp X b1) as (_ & HL).
  assert (HU : sqrt (X * X + b1 * b1) <= 8.3) by (apply (hyp_le X b1 8.1 1.6 8.3); lra).
  destruct (cancel_y_rel gsin gcos x o0 X b1 FX Go0 Nb1) as (c & s0 & n & C & S & N & EC & CS & CN & CZ & NC & NS & _ & LC & LS & HN); [lra|lra|].
  rewrite EC. clear EC. set (H := sqrt (X * X + b1 * b1)) in *.
  assert (ESH : Rabs S * H = Rabs b1) by (apply (hyp_sin C S X b1 H CS CZ); [apply sqrt_sqrt; nra|lra]).
  set (t := Rabs S) in *. assert (T0 : 0 <= t) by apply Rabs_pos.
  assert (Tb : Rabs b1 <= 8.3 * t) by (rewrite <- ESH; assert (t * H <= t * 8.3) by (apply Rmult_le_compat_l; lra); lra).
  destruct (rotate_rows c (o_neg s0) 0 q) as [q1|]; [|discriminate].
  assert (NS' : near 6e-16 s0 S) by (apply (near_weak 53 1024 (6e-16 * t)); [exact NS|lra]).
  destruct (giv_f gsin gcos c s0 d0 d1 o0 C S NC NS' CS LC LS Fd0 Fd1 Fo0 ltac:(fold rd0; lra) ltac:(fold rd1; lra) ltac:(fold b1; lra)) as (G1 & G2 & _).
  change (near 3e-14 (giv_j c s0 d0 d1 o0) (S * S * rd0 + C * C * rd1 + C * S * 2 * b1)) in G2.
  pose proof (giv_o_rel gsin gcos c s0 d0 d1 o0 C S NC NS CS LC LS ltac:(fold t; lra) Fd0 Fd1 Fo0 ltac:(fold rd0; lra) ltac:(fold rd1; lra) ltac:(fold b1; fold t; lra)) as G3.
  fold rd0 rd1 b1 t in G3.
  set (bb := Rabs b2) in *.
  assert (P1 : near (1e-15 * bb) (o_mul o1 c) (b2 * C)) by (apply (nmul 0 6e-16 _ bb 1 (1.01 * bb) _ _ _ _ Fo1 NC (Rle_refl _) LC); lra).
  assert (TB1 : 1.6e-16 <= t * bb) by (apply Rle_trans with (4e-9 * 4e-8); [lra|apply Rmult_le_compat; lra]).
  assert (TB2 : t * bb <= 1.6) by (apply Rle_trans with (1 * 1.6); [apply Rmult_le_compat; lra|lra]).
  assert (P2 : near (1e-15 * (t * bb)) (o_mul (o_neg s0) o1) (- S * b2)).
  { apply (nmul (6e-16 * t) 0 _ t bb (1.01 * (t * bb)) _ _ _ _ (near_neg gsin gcos _ _ _ NS) Fo1); [rewrite Rabs_Ropp; apply Rle_refl|apply Rle_refl|lra|lra|lra]. }
  set (p := C * a1 + S * b1).
  assert (Up : Rabs p <= 10).
  { unfold p. pose proof (Rabs_triang (C * a1) (S * b1)) as TR. rewrite !Rabs_mult in TR. fold t in TR.
    assert (Rabs C * Rabs a1 <= 1 * 8.1) by (apply Rmult_le_compat; try apply Rabs_pos; lra). assert (t * Rabs b1 <= 1 * 1.6) by (apply Rmult_le_compat; try apply Rabs_pos; lra). lra. }
  assert (EX : C * S * (rd0 - rd1) + b1 * (C * C - S * S) = - (S * p)).
  { unfold p, a1. replace (C * S * (rd0 - rd1) + b1 * (C * C - S * S)) with (- (S * (C * (rd1 - rd0 + X) + S * b1)) + C * (S * X + C * b1)) by ring. rewrite CZ. ring. }
  assert (EF : S * S * rd0 + C * C * rd1 + C * S * 2 * b1 = C * p + rd0 - X).
  { unfold p, a1. replace (S * S * rd0 + C * C * rd1 + C * S * 2 * b1) with (C * (C * (rd1 - rd0 + X) + S * b1) + (C * C + S * S) * rd0 + S * (C * b1) - C * C * X) by ring.
    replace (C * b1) with (- (S * X)) by lra. rewrite CS. replace (C * (C * (rd1 - rd0 + X) + S * b1) + 1 * rd0 + S * - (S * X) - C * C * X) with (C * (C * (rd1 - rd0 + X) + S * b1) + 1 * rd0 - (C * C + S * S) * X) by ring. rewrite CS. ring. }
  rewrite EX in G3. rewrite EF in G2.
  set (z := o_mul (o_neg s0) o1) in *. set (f1 := giv_j c s0 d0 d1 o0) in *. set (w0 := giv_o c s0 d0 d1 o0) in *. set (w1 := o_mul o1 c) in *.
  assert (DX : Rabs (B2R w0 + S * p) <= 3e-13 * t). { pose proof (near_val _ _ _ G3) as V. unfold Rminus in V. rewrite Ropp_involutive in V. lra. }
  assert (DZ : Rabs (B2R z + S * b2) <= 1e-14 * (t * bb)). { pose proof (near_val _ _ _ P2) as V. replace (B2R z - - S * b2) with (B2R z + S * b2) in V by ring. lra. }
  assert (SP : Rabs (S * p) <= 10 * t) by (rewrite Rabs_mult; fold t; rewrite Rmult_comm; apply Rmult_le_compat_r; assumption).
  assert (LW0 : Rabs (B2R w0) <= 10.1 * t). { pose proof (Rabs_triang (B2R w0 + S * p) (- (S * p))) as TR. rewrite Rabs_Ropp in TR. replace (B2R w0 + S * p + - (S * p)) with (B2R w0) in TR by ring. lra. }
  assert (ESB : Rabs (S * b2) = t * bb) by (rewrite Rabs_mult; reflexivity).
  assert (LZ : 0.99 * (t * bb) <= Rabs (B2R z) <= 1.01 * (t * bb)).
  { pose proof (Rabs_triang (B2R z + S * b2) (- (S * b2))) as TR. rewrite Rabs_Ropp in TR. replace (B2R z + S * b2 + - (S * b2)) with (B2R z) in TR by ring.
    pose proof (Rabs_triang (B2R z + S * b2) (- B2R z)) as TR2. rewrite Rabs_Ropp in TR2. replace (B2R z + S * b2 + - B2R z) with (S * b2) in TR2 by ring. lra. }
  assert (LZt : Rabs (B2R z) <= 2 * t). { assert (t * bb <= t * 1.6) by (apply Rmult_le_compat_l; lra). lra. }
  assert (Nz : B2R z <> 0) by (intros Z; rewrite Z, Rabs_R0 in LZ; lra).
  destruct (abs_le_hyp (B2R w0) (B2R z)) as (_ & HL2).
  assert (HU2 : sqrt (B2R w0 * B2R w0 + B2R z * B2R z) <= 14 * t) by (apply hyp_bound; lra).
  destruct (cancel_y_rel gsin gcos w0 z _ _ (fin_fl w0 ltac:(apply G3)) (fin_fl z ltac:(apply P2)) Nz) as (c2 & s2 & n2 & C2 & S2 & N2 & EC & CS2 & CN2 & CZ2 & NC2 & NS2 & NN2 & LC2 & LS2 & HN2); [lra|lra|].
  rewrite EC. clear EC. set (H2 := sqrt (B2R w0 * B2R w0 + B2R z * B2R z)) in *.
  destruct (rotate_rows c2 (o_neg s2) 1 q1) as [q2|]; [|discriminate]. cbv zeta. intros EE. injection EE as <- <- <-.
  assert (HH2 : H2 * H2 = B2R w0 * B2R w0 + B2R z * B2R z) by (apply sqrt_sqrt; nra).
  assert (ESH2 : Rabs S2 * H2 = Rabs (B2R z)) by (apply (hyp_sin C2 S2 _ _ H2 CS2 CZ2 HH2); lra).
  set (t2 := Rabs S2) in *. assert (T20 : 0 <= t2) by apply Rabs_pos.
  assert (TB : bb <= 14.2 * t2).
  { apply (Rmult_le_reg_l t); [lra|]. assert (t2 * H2 <= t2 * (14 * t)) by (apply Rmult_le_compat_l; assumption). lra. }
  assert (LW1 : Rabs (B2R w1) <= 20 * t2).
  { pose proof (near_val _ _ _ P1) as V. assert (L : Rabs (b2 * C) <= bb) by (rewrite Rabs_mult; fold bb; rewrite <- (Rmult_1_r bb) at 2; apply Rmult_le_compat_l; [apply Rabs_pos|exact LC]).
    pose proof (abs_le_near _ _ _ _ V L). lra. }
  assert (Lf1 : Rabs (B2R f1) <= 5).
  { pose proof (near_val _ _ _ G2) as V. rewrite <- EF in V.
    assert (L : Rabs (S * S * rd0 + C * C * rd1 + C * S * 2 * b1) <= 4.9); [|pose proof (abs_le_near _ _ _ _ V L); lra].
    destruct (half_cs C S CS) as (HCS & HC & HS). pose proof (Rabs_triang (S * S * rd0 + C * C * rd1) (C * S * 2 * b1)) as TR1. pose proof (Rabs_triang (S * S * rd0) (C * C * rd1)) as TR2.
    rewrite (Rabs_mult (S * S)), (Rabs_mult (C * C)), (Rabs_pos_eq (S * S)), (Rabs_pos_eq (C * C)) in TR2 by lra.
    assert (S * S * Rabs rd0 <= S * S * 3.2) by (apply Rmult_le_compat_l; lra). assert (C * C * Rabs rd1 <= C * C * 3.2) by (apply Rmult_le_compat_l; lra).
    assert (Rabs (C * S * 2 * b1) <= 0.5 * 2 * 1.6); [|lra].
    rewrite 2 Rabs_mult, (Rabs_pos_eq 2) by lra. apply Rmult_le_compat; try apply Rabs_pos; [|lra|exact Uo0]. apply Rmult_le_pos; [apply Rabs_pos|lra]. }
  pose proof (giv_o_rel gsin gcos c2 s2 f1 d2 w1 C2 S2 NC2 NS2 CS2 LC2 LS2 ltac:(fold t2; lra) (near_fin _ _ _ G2) Fd2 (near_fin _ _ _ P1) Lf1 ltac:(fold rd2; lra) LW1) as K3.
  fold rd2 t2 in K3. set (k3 := giv_o c2 s2 f1 d2 w1) in *.
  assert (DN : B2R n2 * B2R n2 <= 1.00001 * (B2R w0 * B2R w0 + B2R z * B2R z)).
  { pose proof (near_val _ _ _ NN2) as V. pose proof (abs_le_near _ _ _ _ V (Req_le _ _ HN2)) as L. rewrite <- HH2, <- (abs_sq (B2R n2)).
    assert (H20 : 0 <= H2) by apply sqrt_pos. pose proof (Rabs_pos (B2R n2)). apply Rle_trans with (1.000001 * H2 * (1.000001 * H2)); [apply Rmult_le_compat; lra|]. assert (0 <= H2 * H2) by (apply Rmult_le_pos; lra). lra. }
  assert (DK : Rabs (B2R k3 - (C2 * S2 * (C * p - a2) + C * b2 * (C2 * C2 - S2 * S2))) <= 5e-13 * t2).
  { pose proof (near_val _ _ _ K3) as V. pose proof (near_val _ _ _ G2) as V2. pose proof (near_val _ _ _ P1) as V1.
    replace (B2R k3 - (C2 * S2 * (C * p - a2) + C * b2 * (C2 * C2 - S2 * S2))) with ((B2R k3 - (C2 * S2 * (B2R f1 - rd2) + B2R w1 * (C2 * C2 - S2 * S2))) + (C2 * S2 * (B2R f1 - (C * p + rd0 - X)) + (B2R w1 - b2 * C) * (C2 * C2 - S2 * S2))) by (unfold a2; ring).
    eapply Rle_trans; [apply Rabs_triang|]. assert (L1 : Rabs (C2 * S2 * (B2R f1 - (C * p + rd0 - X))) <= t2 * 3e-14).
    { rewrite !Rabs_mult. fold t2. apply Rmult_le_compat; try apply Rabs_pos; [apply Rmult_le_pos; [apply Rabs_pos|exact T20]| |exact V2]. rewrite <- (Rmult_1_l t2) at 2. apply Rmult_le_compat_r; assumption. }
    destruct (half_cs C2 S2 CS2) as (_ & HC & HS).
    assert (L2 : Rabs ((B2R w1 - b2 * C) * (C2 * C2 - S2 * S2)) <= 1e-15 * bb * 1) by (rewrite Rabs_mult; apply Rmult_le_compat; try apply Rabs_pos; [exact V1|apply Rabs_le; lra]).
    pose proof (Rabs_triang (C2 * S2 * (B2R f1 - (C * p + rd0 - X))) ((B2R w1 - b2 * C) * (C2 * C2 - S2 * S2))). lra. }
  unfold potential, v2real. cbn [px py]. fold b1 b2.
  exact (step_shrinks X a1 a2 b1 b2 al1 al2 C S (B2R w0) (B2R z) C2 S2 (B2R n2) (B2R k3) AL A2 D1 D2 Lo0 Lo1 ltac:(fold bb; lra) HR CS CZ DX DZ CS2 CZ2 DN Up DK).
Qed.
End F64.
