(** * FloatSvdProofs3.v - rounding errors of one step of the QR iteration (C110), continued *)

From Coq Require Import ZArith Reals List Bool Lra Lia Psatz.
From Flocq Require Import Core BinarySingleNaN.
From Verif Require Import Scalar Linalg Householder RayIntersection SymEigen Spec SpecGeom SpecIsect SpecFloatErr SpecFloatIsect RealBase VecLemmas ExtrinsicsProofs IsectBase IsectProofs SpectralProofs TriProofs FloatBase FloatRound FloatErrProofs FloatApprox FloatDirProofs FloatIsectProofs4 FloatQRProofs QRProofs
  SymEigenProofs SymEigenProofs2 SymEigenProofs4 FloatSvdProofs FloatSvdProofs2.
Import ListNotations.
Local Open Scope R_scope.

Section Explicit.
Context {T : Type} {O : Ops T}.
Local Open Scope S_scope.
Definition giv_i (c s mii mjj mij : T) : T := ((c * c) * mii + (s * s) * mjj) - (c * s) * o_two * mij.
Definition giv_j (c s mii mjj mij : T) : T := ((s * s) * mii + (c * c) * mjj) + (c * s) * o_two * mij.
Definition giv_o (c s mii mjj mij : T) : T := (c * s) * (mii - mjj) + mij * (c * c - s * s).
Lemma chase_e vec d0 d1 d2 o0 o1 q : chase 0 2 2 0 vec (mkV3 d0 d1 d2, mkV2 o0 o1, q) =
  match cancel_y vec with
  | None => Some (mkV3 d0 d1 d2, mkV2 o0 o1, q)
  | Some (c, s, _) =>
    match rotate_rows c (- s) 0 q with
    | None => None
    | Some q1 =>
      match cancel_y (mkV2 (giv_o c s d0 d1 o0) ((- s) * o1)) with
      | None => Some (mkV3 (giv_i c s d0 d1 o0) (giv_j c s d0 d1 o0) d2, mkV2 (giv_o c s d0 d1 o0) (o1 * c), q1)
      | Some (c2, s2, n2) =>
        match rotate_rows c2 (- s2) 1 q1 with
        | None => None
        | Some q2 =>
          let e1 := giv_j c s d0 d1 o0 in
          Some (mkV3 (giv_i c s d0 d1 o0) (giv_i c2 s2 e1 d2 (o1 * c)) (giv_j c2 s2 e1 d2 (o1 * c)), mkV2 n2 (giv_o c2 s2 e1 d2 (o1 * c)), q2)
        end
      end
    end
  end.
Proof.
  cbn [chase]. destruct (cancel_y vec) as [((c & s) & n)|]; [|reflexivity].
  cbn [Nat.ltb Nat.leb bind v3_get v3_set v2_get v2_set Nat.add vx vy vz px py Nat.eqb Nat.sub negb fst snd].
  unfold bind. destruct (rotate_rows c (- s) 0 q) as [q1|]; [|reflexivity].
  cbn [v3_get v3_set v2_get v2_set vx vy vz px py].
  fold (giv_o c s d0 d1 o0). destruct (cancel_y (mkV2 (giv_o c s d0 d1 o0) (- s * o1))) as [((c2 & s2) & n2)|]; [|reflexivity].
  cbn [v3_get v3_set v2_get v2_set vx vy vz px py]. destruct (rotate_rows c2 (- s2) 1 q1) as [q2|]; reflexivity.
Qed.
End Explicit.

Definition bulge (d0 d1 d2 o0 o1 z : R) : M33 R := mkM33 d0 o0 z o0 d1 o1 z o1 d2.

Lemma hyp_le x y a b c : Rabs x <= a -> Rabs y <= b -> a * a + b * b <= c * c -> 0 <= c -> sqrt (x * x + y * y) <= c.
Proof.
  intros A B C P. apply Rsqr_incr_0_var; [|exact P]. unfold Rsqr. rewrite sqrt_sqrt by nra.
  pose proof (Rabs_pos x). pose proof (Rabs_pos y). assert (Rabs x * Rabs x <= a * a) by (apply Rmult_le_compat; lra). assert (Rabs y * Rabs y <= b * b) by (apply Rmult_le_compat; lra).
  rewrite <- Rabs_mult, Rabs_pos_eq in * by nra. lra.
Qed.
Lemma hyp_sin C S X Y H : C * C + S * S = 1 -> S * X + C * Y = 0 -> H * H = X * X + Y * Y -> 0 <= H -> Rabs S * H = Rabs Y.
Proof.
  intros CS Z HH P. assert (E : S * H * (S * H) = Y * Y).
  { replace (S * H * (S * H)) with (S * S * (H * H)) by ring. rewrite HH.
    replace (S * S * (X * X + Y * Y)) with ((S * X) * (S * X) + S * S * (Y * Y)) by ring. replace (S * X) with (- (C * Y)) by lra.
    replace (- (C * Y) * - (C * Y) + S * S * (Y * Y)) with ((C * C + S * S) * (Y * Y)) by ring. rewrite CS. ring. }
  rewrite <- (Rabs_pos_eq H P) at 1. rewrite <- Rabs_mult. apply Rsqr_eq_abs_0. exact E.
Qed.
Lemma prod_bounds x y a b c d : a <= Rabs x <= c -> b <= Rabs y <= d -> 0 <= a -> 0 <= b -> a * b <= Rabs (x * y) <= c * d.
Proof. intros A B P Q. rewrite Rabs_mult. split; apply Rmult_le_compat; try apply Rabs_pos; lra. Qed.

Section F64.
Variables gsin gcos : binary_float 53 1024 -> binary_float 53 1024.
Local Notation F := (binary_float 53 1024).
Local Hint Extern 0 (Ops (binary_float 53 1024)) => exact (B_ops 53 1024 f64_prec f64_emax gsin gcos) : typeclass_instances.
Local Notation flr := (fl 53 1024).
Local Notation nmul := (near_mul gsin gcos).
Local Notation nadd := (near_add gsin gcos).
Local Notation nsub := (near_sub gsin gcos).

Definition v2real (o : V2 F) : V2 R := mkV2 (B2R (px o)) (B2R (py o)).
Definition v2fin (o : V2 F) : Prop := is_finite (px o) = true /\ is_finite (py o) = true.
Definition trif (d : V3 F) (o : V2 F) : M33 R := tri (vreal d) (v2real o).
(** [s] is, up to [b], the matrix [t] in the coordinates [Q], and [q] is, up to [a], this [Q] *)
Definition follows (s : M33 R) (q : M33 F) (t : M33 R) (a b : R) : Prop := exists Q, qnear q Q a /\ appr s (sim Q t) b.
Lemma near_val e (x : F) a : near e x a -> Rabs (B2R x - a) <= e.
Proof. intros (_ & H). exact H. Qed.
Lemma fin_fl (x : F) : is_finite x = true -> flr x (B2R x).
Proof. intros H. now split. Qed.

Lemma chase_f s q (x d0 d1 d2 o0 o1 : F) X a b l : bnd s l -> l <= 3.1 -> b <= 0.1 -> a <= 0.5 -> flr x X -> Rabs X <= 12 ->
  vec_finite (mkV3 d0 d1 d2) -> v2fin (mkV2 o0 o1) -> 4e-13 <= Rabs (B2R o0) -> 4e-13 <= Rabs (B2R o1) ->
  follows s q (trif (mkV3 d0 d1 d2) (mkV2 o0 o1)) a b ->
  exists d' o' q', chase 0 2 2 0 (mkV2 x o0) (mkV3 d0 d1 d2, mkV2 o0 o1, q) = Some (d', o', q') /\ vec_finite d' /\ v2fin o' /\
    follows s q' (trif d' o') (a + 3e-14) (b + 2e-13).
Proof.
  intros Bs Ll Lb La FX LX (Fd0 & Fd1 & Fd2) (Fo0 & Fo1) Lo0 Lo1 (Q & QN & AP). cbn [vx vy vz px py] in *.
  pose proof QN as (_ & OQ & _). pose proof (bnd_entries _ _ (middle_bnd s Q _ l b OQ Bs AP)) as BE.
  unfold trif, tri, vreal, v2real, entries_le in BE. cbn [m00 m01 m02 m10 m11 m12 m20 m21 m22 vx vy vz px py] in BE. rewrite !Rminus_0_r in BE. destruct BE as (B0 & Bo0 & _ & _ & B1 & Bo1 & _ & _ & B2).
  apply near_exact in Fd0. apply near_exact in Fd1. apply near_exact in Fd2. pose proof (fin_fl _ Fo0) as Go0. apply near_exact in Fo0. apply near_exact in Fo1.
  set (rd0 := B2R d0) in *. set (rd1 := B2R d1) in *. set (rd2 := B2R d2) in *. set (ro0 := B2R o0) in *. set (ro1 := B2R o1) in *.
  assert (No0 : ro0 <> 0) by (intros Z; rewrite Z, Rabs_R0 in Lo0; lra).
  destruct (abs_le_hyp X ro0) as (_ & HL).
  assert (HU : sqrt (X * X + ro0 * ro0) <= 13).
  { apply (hyp_le X ro0 12 4 13); lra. }
  destruct (cancel_y_f gsin gcos x o0 X ro0 FX Go0 No0) as (c & s0 & n & C & S & N & EC & CS & CN & CZ & NC & NS & _ & LC & LS & HN); [lra|].
  rewrite chase_e, EC. clear EC. set (H := sqrt (X * X + ro0 * ro0)) in *.
  destruct (qnear_0 gsin gcos c (o_neg s0) C (- S) q Q a QN ltac:(lra) NC (near_neg gsin gcos _ _ _ NS) ltac:(lra) LC ltac:(now rewrite Rabs_Ropp)) as (q1 & E1 & QN1).
  rewrite E1. clear E1. rewrite <- mtr_rot01 in QN1.
  (* the entries after the first rotation *)
  destruct (giv_f gsin gcos c s0 d0 d1 o0 C S NC NS CS LC LS Fd0 Fd1 Fo0 ltac:(fold rd0; lra) ltac:(fold rd1; lra) ltac:(fold ro0; lra)) as (G1 & G2 & G3).
  change (near 3e-14 (giv_i c s0 d0 d1 o0) (C * C * rd0 + S * S * rd1 - C * S * 2 * ro0)) in G1. change (near 3e-14 (giv_j c s0 d0 d1 o0) (S * S * rd0 + C * C * rd1 + C * S * 2 * ro0)) in G2.
  change (near 3e-14 (giv_o c s0 d0 d1 o0) (C * S * (rd0 - rd1) + ro0 * (C * C - S * S))) in G3.
  assert (P1 : near 4e-15 (o_mul o1 c) (ro1 * C)) by (apply (nmul 0 6e-16 _ 4 1 4.01 _ _ _ _ Fo1 NC); lra).
  assert (P2 : near 4e-15 (o_mul (o_neg s0) o1) (- S * ro1)) by (apply (nmul 6e-16 0 _ 1 4 4.01 _ _ _ _ (near_neg gsin gcos _ _ _ NS) Fo1); rewrite ?Rabs_Ropp; lra).
  set (z := o_mul (o_neg s0) o1) in *. set (f0 := giv_i c s0 d0 d1 o0) in *. set (f1 := giv_j c s0 d0 d1 o0) in *. set (w0 := giv_o c s0 d0 d1 o0) in *. set (w1 := o_mul o1 c) in *.
  (* the bulge does not vanish *)
  assert (LSL : 3e-14 <= Rabs S).
  { assert (E' : Rabs S * H = Rabs ro0).
    { apply (hyp_sin C S X ro0 H CS CZ); [apply sqrt_sqrt; nra|lra]. }
    pose proof (Rabs_pos S). assert (Rabs S * H <= Rabs S * 13) by (apply Rmult_le_compat_l; lra). lra. }
  assert (LZ : 1e-27 <= Rabs (B2R z)).
  { assert (SR : 2.9e-14 <= Rabs (B2R s0)). { destruct NS as (_ & NS). rewrite Rabs_minus_sym in NS. pose proof (Rabs_triang (S - B2R s0) (B2R s0)) as TR. replace (S - B2R s0 + B2R s0) with S in TR by ring. lra. }
    assert (FS : flr (o_neg s0) (- B2R s0)) by (apply (fl_neg 53 1024 f64_prec f64_emax gsin gcos); split; [apply NS|reflexivity]).
    assert (FO : flr o1 ro1) by (split; [apply Fo1|reflexivity]).
    pose proof u64_le as U. pose proof tiny64_le as TI. pose proof big64_ge as BG. pose proof (bpow_gt_0 radix2 (- (53))) as U0.
    assert (PB : 1.1e-26 <= Rabs (- B2R s0 * ro1) <= 5).
    { destruct NS as (_ & NS). pose proof (abs_le_near _ _ _ _ NS LS) as AN. pose proof (prod_bounds (- B2R s0) ro1 2.9e-14 4e-13 1.1 4 ltac:(rewrite Rabs_Ropp; lra) ltac:(lra) ltac:(lra) ltac:(lra)). lra. }
    set (P := Rabs (- B2R s0 * ro1)) in *.
    destruct (mul_err 53 1024 f64_prec f64_emax gsin gcos _ _ _ _ P FS FO) as (r & (R1 & R1') & R2 & _); [clear - TI PB; lra|apply Rle_refl|pose proof (Rmult_le_compat_l P _ _ ltac:(lra) U); clear - H0 BG PB; lra|].
    change (B2R z = r) in R1'. rewrite R1'. rewrite Rabs_minus_sym in R2. pose proof (Rabs_triang (- B2R s0 * ro1 - r) r) as TR. replace (- B2R s0 * ro1 - r + r) with (- B2R s0 * ro1) in TR by ring. fold P in TR. pose proof (Rmult_le_compat_l P _ _ ltac:(lra) U). lra. }
  clearbody z f0 f1 w0 w1.
  set (Q1 := mm Q (mtr (rot01 C S))) in *. pose proof (rot01_orth C S CS) as OG.
  assert (AP1 : appr s (sim Q1 (bulge (B2R f0) (B2R f1) rd2 (B2R w0) (B2R w1) (B2R z))) (b + 9e-14)).
  { eapply appr_trans; [rewrite <- (sim_mm Q (rot01 C S) _ OG) in AP; exact AP|]. apply appr_sim; [apply QN1|].
    replace 9e-14 with (3 * 3e-14) by lra. apply entries_appr.
    apply near_val in G1. apply near_val in G2. apply near_val in G3. apply near_val in P1. apply near_val in P2.
    unfold trif, tri, vreal, v2real. cbn [vx vy vz px py]. fold rd0. fold rd1. fold rd2. fold ro0. fold ro1.
    unfold entries_le, bulge, rot01, mtr, mm, mrow0, mrow1, mrow2, mcol0, mcol1, mcol2.
    cbn [m00 m01 m02 m10 m11 m12 m20 m21 m22]. unfold vdot.
    cbn [vx vy vz px py].
    apply Rabs_le_inv in G1. apply Rabs_le_inv in G2. apply Rabs_le_inv in G3. apply Rabs_le_inv in P1. apply Rabs_le_inv in P2.
    split; [|split; [|split; [|split; [|split; [|split; [|split; [|split]]]]]]]; apply Rabs_le; lra. }
  pose proof (bnd_entries _ _ (middle_bnd s Q1 _ l _ ltac:(apply QN1) Bs AP1)) as BE1. unfold bulge, entries_le in BE1. cbn [m00 m01 m02 m10 m11 m12 m20 m21 m22] in BE1. rewrite !Rminus_0_r in BE1.
  destruct BE1 as (Bf0 & Bw0 & Bz & _ & Bf1 & Bw1 & _).
  assert (Nz : B2R z <> 0) by (intros Z; rewrite Z, Rabs_R0 in LZ; lra).
  destruct (abs_le_hyp (B2R w0) (B2R z)) as (_ & HL2).
  assert (HU2 : sqrt (B2R w0 * B2R w0 + B2R z * B2R z) <= 6).
  { apply (hyp_le _ _ 4 4 6); lra. }
  destruct (cancel_y_f gsin gcos w0 z _ _ (fin_fl w0 ltac:(apply G3)) (fin_fl z ltac:(apply P2)) Nz) as (c2 & s2 & n2 & C2 & S2 & N2 & EC & CS2 & CN2 & CZ2 & NC2 & NS2 & NN2 & LC2 & LS2 & HN2); [lra|].
  rewrite EC. clear EC.
  destruct (qnear_1 gsin gcos c2 (o_neg s2) C2 (- S2) q1 Q1 _ QN1 ltac:(lra) NC2 (near_neg gsin gcos _ _ _ NS2) ltac:(lra) LC2 ltac:(now rewrite Rabs_Ropp)) as (q2 & E2 & QN2).
  rewrite E2. clear E2. rewrite <- mtr_rot12 in QN2. cbv zeta.
  destruct (giv_f gsin gcos c2 s2 f1 d2 w1 C2 S2 NC2 NS2 CS2 LC2 LS2 (near_fin _ _ _ G2) Fd2 (near_fin _ _ _ P1) ltac:(lra) ltac:(fold rd2; lra) ltac:(lra)) as (K1 & K2 & K3).
  change (near 3e-14 (giv_i c2 s2 f1 d2 w1) (C2 * C2 * B2R f1 + S2 * S2 * rd2 - C2 * S2 * 2 * B2R w1)) in K1. change (near 3e-14 (giv_j c2 s2 f1 d2 w1) (S2 * S2 * B2R f1 + C2 * C2 * rd2 + C2 * S2 * 2 * B2R w1)) in K2.
  change (near 3e-14 (giv_o c2 s2 f1 d2 w1) (C2 * S2 * (B2R f1 - rd2) + B2R w1 * (C2 * C2 - S2 * S2))) in K3.
  set (k1 := giv_i c2 s2 f1 d2 w1) in *. set (k2 := giv_j c2 s2 f1 d2 w1) in *. set (k3 := giv_o c2 s2 f1 d2 w1) in *. clearbody k1 k2 k3.
  do 3 eexists. split; [reflexivity|]. split; [split; [apply G1|split; [apply K1|apply K2]]|]. split; [split; [apply NN2|apply K3]|].
  exists (mm Q1 (mtr (rot12 C2 S2))). split.
  - destruct QN2 as (M2 & O2 & A2). split; [exact M2|]. split; [exact O2|]. eapply appr_le; [|exact A2]. lra.
  - pose proof (rot12_orth C2 S2 CS2) as OG2. apply (appr_le _ _ (b + 9e-14 + 9e-14)); [lra|].
    eapply appr_trans; [rewrite <- (sim_mm Q1 (rot12 C2 S2) _ OG2) in AP1; exact AP1|]. apply appr_sim; [apply QN2|].
    replace 9e-14 with (3 * 3e-14) by lra. apply entries_appr.
    apply near_val in K1. apply near_val in K2. apply near_val in K3. apply near_val in NN2.
    assert (NN : Rabs (B2R n2 - N2) <= 3e-14) by lra.
    unfold trif, tri, vreal, v2real. cbn [vx vy vz px py]. fold rd2.
    unfold entries_le, bulge, rot12, mtr, mm, mrow0, mrow1, mrow2, mcol0, mcol1, mcol2.
    cbn [m00 m01 m02 m10 m11 m12 m20 m21 m22]. unfold vdot.
    cbn [vx vy vz px py].
    apply Rabs_le_inv in K1. apply Rabs_le_inv in K2. apply Rabs_le_inv in K3. apply Rabs_le_inv in NN.
    split; [|split; [|split; [|split; [|split; [|split; [|split; [|split]]]]]]]; apply Rabs_le; lra.
Qed.
End F64.
