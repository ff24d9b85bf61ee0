(** * FloatSvdProofs6.v - rounding errors of the QR iteration (C110) *)

From Coq Require Import ZArith Reals List Bool Lra Lia Psatz.
From Flocq Require Import Core BinarySingleNaN.
From Verif Require Import Scalar Linalg Householder RayIntersection SymEigen Spec SpecGeom SpecIsect SpecFloatErr SpecFloatIsect RealBase VecLemmas ExtrinsicsProofs IsectBase IsectProofs SpectralProofs TriProofs FloatBase FloatRound FloatErrProofs FloatApprox FloatDirProofs FloatIsectProofs4 FloatQRProofs QRProofs
  SymEigenProofs SymEigenProofs2 SymEigenProofs4 FloatSvdProofs FloatSvdProofs2 FloatSvdProofs3 FloatSvdProofs4 FloatSvdProofs5.
Import ListNotations.
Local Open Scope R_scope.

Section Explicit.
Context {T : Type} {O : Ops T}.
Local Open Scope S_scope.
Lemma delimit2_e d0 d1 d2 o0 o1 eps : delimit_subproblem (mkV3 d0 d1 d2) (mkV2 o0 o1) 2 eps =
  if (eps * (o_abs d2 + o_abs d1)) <? o_abs o1 then
    if orb (o_eqb o0 o_zero) (o_abs o0 <=? eps * (o_abs d1 + o_abs d0)) then Some (1%nat, 2%nat, mkV2 o_zero o1) else Some (0%nat, 2%nat, mkV2 o0 o1)
  else if (eps * (o_abs d1 + o_abs d0)) <? o_abs o0 then Some (0%nat, 1%nat, mkV2 o0 o1) else Some (0%nat, 0%nat, mkV2 o0 o1).
Proof.
  unfold delimit_subproblem. cbn [delimit_end]. rewrite coupling1_e, coupling0_e. unfold bind. cbn [fst snd].
  destruct (o_ltb _ (o_abs o1)).
  - cbn [delimit_start v2_get px py]. rewrite coupling0_e. unfold bind. cbn [fst snd v2_set px py]. destruct (orb _ _); reflexivity.
  - destruct (o_ltb _ (o_abs o0)); reflexivity.
Qed.
Lemma delimit1_e d0 d1 d2 o0 o1 eps : delimit_subproblem (mkV3 d0 d1 d2) (mkV2 o0 o1) 1 eps =
  if (eps * (o_abs d1 + o_abs d0)) <? o_abs o0 then Some (0%nat, 1%nat, mkV2 o0 o1) else Some (0%nat, 0%nat, mkV2 o0 o1).
Proof. unfold delimit_subproblem. cbn [delimit_end]. rewrite coupling0_e. unfold bind. cbn [fst snd]. destruct (o_ltb _ (o_abs o0)); reflexivity. Qed.
Lemma delimit0_e d o eps : delimit_subproblem d o 0 eps = Some (0%nat, 0%nat, o).
Proof. reflexivity. Qed.
Lemma step02_e eps d0 d1 d2 o0 o1 q : qr_step eps 0 2 (mkV3 d0 d1 d2, mkV2 o0 o1, q) =
  match chase 0 2 2 0 (mkV2 (d0 - wilkinson_shift d1 d2 o1) o0) (mkV3 d0 d1 d2, mkV2 o0 o1, q) with
  | None => None
  | Some (d, o, q) => if o_abs (py o) <=? eps * (o_abs (vz d) + o_abs (vy d)) then Some (d, o, q, 1%nat) else Some (d, o, q, 2%nat)
  end.
Proof.
  unfold qr_step. cbn [Nat.sub Nat.add Nat.ltb Nat.leb v3_get v2_get vx vy vz px py]. unfold bind.
  destruct (chase _ _ _ _ _ _) as [(([a b c] & [e f]) & g)|]; [|reflexivity]. rewrite coupling1_e. cbn [fst snd vx vy vz px py]. destruct (o_leb _ _); reflexivity.
Qed.
Lemma step12_e eps d0 d1 d2 o0 o1 q : qr_step eps 1 2 (mkV3 d0 d1 d2, mkV2 o0 o1, q) =
  match eigvals_2x2 d1 o1 o1 d2 with
  | None => None
  | Some (v1, v2) =>
    match match givens_try_new (v1 - d2) o1 eps with Some (c, s) => rotate_rows c s 1 q | None => Some q end with
    | None => None
    | Some q => Some (mkV3 d0 v1 v2, mkV2 o0 o1, q, 1%nat)
    end
  end.
Proof.
  unfold qr_step. cbn [Nat.sub Nat.add Nat.ltb Nat.leb Nat.eqb v3_get v2_get vx vy vz px py]. unfold bind.
  destruct (eigvals_2x2 d1 o1 o1 d2) as [(v1 & v2)|]; [|reflexivity]. cbn [fst snd v3_set vx vy vz px py]. reflexivity.
Qed.
Lemma step01_e eps d0 d1 d2 o0 o1 q : qr_step eps 0 1 (mkV3 d0 d1 d2, mkV2 o0 o1, q) =
  match eigvals_2x2 d0 o0 o0 d1 with
  | None => None
  | Some (v1, v2) =>
    match match givens_try_new (v1 - d1) o0 eps with Some (c, s) => rotate_rows c s 0 q | None => Some q end with
    | None => None
    | Some q => Some (mkV3 v1 v2 d2, mkV2 o0 o1, q, 0%nat)
    end
  end.
Proof.
  unfold qr_step. cbn [Nat.sub Nat.add Nat.ltb Nat.leb Nat.eqb v3_get v2_get vx vy vz px py]. unfold bind.
  destruct (eigvals_2x2 d0 o0 o0 d1) as [(v1 & v2)|]; [|reflexivity]. cbn [fst snd v3_set vx vy vz px py]. reflexivity.
Qed.
End Explicit.

(** the diagonal of a matrix close to one similar to [s] *)
Lemma diag_low s q t mu b e : orthogonal q -> (forall v, mu * vdot v v <= vdot v (mv s v)) -> appr s (sim q t) b -> vdot e e = 1 -> mu - b <= vdot e (mv t e).
Proof.
  intros O P A E. specialize (P (mv q e)). specialize (A (mv q e)). rewrite orthogonal_dot in P by exact O. rewrite E in P. rewrite orthogonal_len, (vlen_1 e E) in A by exact O.
  unfold vdist in A. pose proof (cauchy (mv q e) (vsub (mv s (mv q e)) (mv (sim q t) (mv q e)))) as C. rewrite vdot_vsub_r in C.
  rewrite orthogonal_len, (vlen_1 e E) in C by exact O. unfold sim in C at 1. rewrite !mv_mm, orthogonal_inv_l, orthogonal_dot in C by exact O.
  apply Rabs_le_inv in C. lra.
Qed.
Lemma tri_low s q d o mu b : orthogonal q -> (forall v, mu * vdot v v <= vdot v (mv s v)) -> appr s (sim q (tri d o)) b -> mu - b <= vx d /\ mu - b <= vy d /\ mu - b <= vz d.
Proof.
  intros O P A. pose proof (diag_low s q _ mu b (mkV3 1 0 0) O P A ltac:(vring)) as H0. pose proof (diag_low s q _ mu b (mkV3 0 1 0) O P A ltac:(vring)) as H1.
  pose proof (diag_low s q _ mu b (mkV3 0 0 1) O P A ltac:(vring)) as H2. clear - H0 H1 H2. destruct d, o. unfold tri in *. ru_spec. repeat split; lra.
Qed.

Lemma low_of_pd s : (forall v, 9e-6 * vdot v v <= vdot v (mv s v)) ->
  forall Q d o b, orthogonal Q -> appr s (sim Q (tri d o)) b -> b <= 1e-8 -> 1.7e-5 <= Rabs (vx d) + Rabs (vy d) /\ 1.7e-5 <= Rabs (vy d) + Rabs (vz d).
Proof.
  intros PD Q d o b OQ A Lb. destruct (tri_low s Q d o _ b OQ PD A) as (H0 & H1 & H2). rewrite !Rabs_pos_eq by lra. lra.
Qed.

Section F64.
Variables gsin gcos : binary_float 53 1024 -> binary_float 53 1024.
Local Notation F := (binary_float 53 1024).
Local Hint Extern 0 (Ops (binary_float 53 1024)) => exact (B_ops 53 1024 f64_prec f64_emax gsin gcos) : typeclass_instances.
Local Notation flr := (fl 53 1024).
Variables (s : M33 R) (l e : R) (eps : F).
Hypotheses (Bs : bnd s l) (L1 : 1 <= l <= 3.05) (FE : flr eps e) (E1 : 0.99e-7 <= e <= 1.01e-7).
(** two neighbours on the diagonal are not both tiny *)
Hypothesis (LOW : forall Q d o b, orthogonal Q -> appr s (sim Q (tri d o)) b -> b <= 1e-8 -> 1.7e-5 <= Rabs (vx d) + Rabs (vy d) /\ 1.7e-5 <= Rabs (vy d) + Rabs (vz d)).

Definition finv (start fin : nat) (d : V3 F) (o : V2 F) (q : M33 F) (a b : R) : Prop :=
  vec_finite d /\ v2fin o /\
  ((start = 0%nat /\ fin = 2%nat /\ follows s q (trif d o) a b /\ 4e-13 <= Rabs (B2R (px o)) /\ 4e-13 <= Rabs (B2R (py o))) \/
   (start = 1%nat /\ fin = 2%nat /\ px o = o_zero /\ follows s q (tri (vreal d) (mkV2 0 (B2R (py o)))) a (b + 2.1 * (e * l))) \/
   (start = 0%nat /\ fin = 1%nat /\ follows s q (tri (vreal d) (mkV2 (B2R (px o)) 0)) a (b + 2.1 * (e * l))) \/
   (start = 0%nat /\ fin = 0%nat /\ exists l', follows s q (diagm l') a (b + 8 * (e * l)))).

Lemma follows_bounds q d o a b : follows s q (tri d o) a b -> b <= 1e-3 ->
  Rabs (vx d) <= l + b /\ Rabs (vy d) <= l + b /\ Rabs (vz d) <= l + b /\ Rabs (px o) <= l + b /\ Rabs (py o) <= l + b.
Proof.
  intros (Q & QN & AP) _. pose proof (bnd_entries _ _ (middle_bnd s Q _ l b ltac:(apply QN) Bs AP)) as BE. clear - BE. destruct d as [a0 a1 a2], o as [a3 a4]. unfold tri, entries_le in BE. cbn [m00 m01 m02 m10 m11 m12 m20 m21 m22 vx vy vz px py] in *.
  rewrite !Rminus_0_r in BE. tauto.
Qed.
Lemma follows_low q d o a b : follows s q (tri d o) a b -> b <= 1e-8 -> 1.7e-5 <= Rabs (vx d) + Rabs (vy d) /\ 1.7e-5 <= Rabs (vy d) + Rabs (vz d).
Proof. intros (Q & QN & AP) Lb. apply (LOW Q d o b); [apply QN|exact AP|exact Lb]. Qed.
Lemma el_bound : 0.99e-7 <= e * l <= 3.1e-7.
Proof. clear - L1 E1. nra. Qed.

Lemma thresh2 (dn dm o : F) b : is_finite dn = true -> is_finite dm = true -> is_finite o = true -> b <= 1e-8 -> Rabs (B2R dn) <= l + b -> Rabs (B2R dm) <= l + b ->
  exists c, flr (o_mul eps (o_add (o_abs dn) (o_abs dm))) c /\ (Rabs (B2R o) <= c -> Rabs (B2R o) <= 2.1 * (e * l)) /\ (1.7e-5 <= Rabs (B2R dn) + Rabs (B2R dm) -> c < Rabs (B2R o) -> 4e-13 <= Rabs (B2R o)).
Proof.
  intros Fn Fm Fo Lb Bn Bm. pose proof el_bound as EL.
  destruct (thresh_f gsin gcos eps dn dm e _ _ FE E1 (fin_fl _ Fn) (fin_fl _ Fm)) as (c & Fc & _ & CU & CL); [lra|lra|].
  exists c. split; [exact Fc|]. split.
  - intros H. assert (1.01 * e * (Rabs (B2R dn) + Rabs (B2R dm)) <= 1.01 * e * (2 * (l + b))) by (apply Rmult_le_compat_l; lra).
    assert (e * b <= 1.01e-7 * 1e-8) by (clear - E1 Lb; nra). lra.
  - intros PS H. specialize (CL ltac:(lra)).
    assert (0.99e-7 * 1.7e-5 <= e * (Rabs (B2R dn) + Rabs (B2R dm))) by (apply Rmult_le_compat; lra). lra.
Qed.

Lemma finv_2 d o q a b : b <= 1e-8 -> vec_finite d -> v2fin o -> follows s q (trif d o) a b ->
  exists start fin o', delimit_subproblem d o 2 eps = Some (start, fin, o') /\ finv start fin d o' q a b.
Proof.
  intros Lb Fd Fo FO. pose proof el_bound as EL.
  destruct (follows_bounds q _ _ a b FO ltac:(lra)) as (B0 & B1 & B2 & Bo0 & Bo1). destruct (follows_low q _ _ a b FO Lb) as (P0 & P1).
  destruct d as [d0 d1 d2], o as [o0 o1]. unfold vreal, v2real in *. cbn [vx vy vz px py] in *. pose proof Fd as (Fd0 & Fd1 & Fd2). pose proof Fo as (Fo0 & Fo1). cbn [vx vy vz px py] in *.
  destruct (thresh2 d2 d1 o1 b Fd2 Fd1 Fo1 Lb B2 B1) as (c1 & Fc1 & S1 & G1). destruct (thresh2 d1 d0 o0 b Fd1 Fd0 Fo0 Lb B1 B0) as (c0 & Fc0 & S0 & G0).
  specialize (G1 ltac:(lra)). specialize (G0 ltac:(lra)). rewrite delimit2_e.
  pose proof (fl_abs 53 1024 f64_prec f64_emax gsin gcos _ _ (fin_fl _ Fo0)) as A0. pose proof (fl_abs 53 1024 f64_prec f64_emax gsin gcos _ _ (fin_fl _ Fo1)) as A1.
  assert (D0 : Rabs (B2R o0) <= 2.1 * (e * l) -> follows s q (tri (vreal (mkV3 d0 d1 d2)) (mkV2 0 (B2R o1))) a (b + 2.1 * (e * l))).
  { intros H. apply (follows_appr s q _ _ a b _ FO). unfold trif. eapply appr_le; [|apply appr_off0]. now rewrite Rminus_0_r. }
  assert (D1 : Rabs (B2R o1) <= 2.1 * (e * l) -> follows s q (tri (vreal (mkV3 d0 d1 d2)) (mkV2 (B2R o0) 0)) a (b + 2.1 * (e * l))).
  { intros H. apply (follows_appr s q _ _ a b _ FO). unfold trif. eapply appr_le; [|apply appr_off1]. now rewrite Rminus_0_r. }
  destruct (o_ltb (o_mul eps (o_add (o_abs d2) (o_abs d1))) (o_abs o1)) eqn:C1.
  - apply (fl_ltb 53 1024 f64_prec f64_emax gsin gcos _ _ _ _ Fc1 A1) in C1. specialize (G1 C1).
    destruct (orb _ _) eqn:C0; do 3 eexists; (split; [reflexivity|]).
    + split; [exact Fd|]. split; [split; [reflexivity|exact Fo1]|]. right. left. split; [reflexivity|]. split; [reflexivity|]. split; [reflexivity|]. cbn [py]. apply D0.
      apply orb_true_iff in C0. destruct C0 as [C0|C0].
      * apply (fl_eqb 53 1024 f64_prec f64_emax gsin gcos _ _ _ _ (fin_fl _ Fo0) (fl_zero' 53 1024 f64_prec f64_emax gsin gcos)) in C0. rewrite C0, Rabs_R0. lra.
      * apply (fl_leb 53 1024 f64_prec f64_emax gsin gcos _ _ _ _ A0 Fc0) in C0. now apply S0.
    + split; [exact Fd|]. split; [exact Fo|]. left. cbn [px py]. split; [reflexivity|]. split; [reflexivity|]. split; [exact FO|]. split; [|exact G1]. apply G0.
      apply orb_false_iff in C0. destruct C0 as (_ & C0). apply Rnot_le_lt. intros H. apply (fl_leb 53 1024 f64_prec f64_emax gsin gcos _ _ _ _ A0 Fc0) in H. congruence.
  - assert (H1 : Rabs (B2R o1) <= 2.1 * (e * l)). { apply S1. apply Rnot_lt_le. intros H. apply (fl_ltb 53 1024 f64_prec f64_emax gsin gcos _ _ _ _ Fc1 A1) in H. congruence. }
    destruct (o_ltb (o_mul eps (o_add (o_abs d1) (o_abs d0))) (o_abs o0)) eqn:C0; do 3 eexists; (split; [reflexivity|]); (split; [exact Fd|]); (split; [exact Fo|]).
    + right. right. left. cbn [px]. split; [reflexivity|]. split; [reflexivity|]. now apply D1.
    + right. right. right. split; [reflexivity|]. split; [reflexivity|]. exists (vreal (mkV3 d0 d1 d2)).
      assert (H0 : Rabs (B2R o0) <= 2.1 * (e * l)). { apply S0. apply Rnot_lt_le. intros H. apply (fl_ltb 53 1024 f64_prec f64_emax gsin gcos _ _ _ _ Fc0 A0) in H. congruence. }
      apply (follows_le s q _ a (b + 2.1 * (e * l) + 2.1 * (e * l))); [|lra|lra].
      eapply follows_appr; [exact (D1 H1)|]. eapply appr_le; [|apply appr_off0]. now rewrite Rminus_0_r.
Qed.
Lemma finv_1 d o q a b : b <= 1e-8 -> vec_finite d -> v2fin o -> follows s q (trif d o) a b -> Rabs (B2R (py o)) <= 2.1 * (e * l) ->
  exists start fin o', delimit_subproblem d o 1 eps = Some (start, fin, o') /\ finv start fin d o' q a b.
Proof.
  intros Lb Fd Fo FO H1. pose proof el_bound as EL.
  destruct (follows_bounds q _ _ a b FO ltac:(lra)) as (B0 & B1 & B2 & Bo0 & Bo1). destruct (follows_low q _ _ a b FO Lb) as (P0 & P1).
  destruct d as [d0 d1 d2], o as [o0 o1]. unfold vreal, v2real in *. cbn [vx vy vz px py] in *. pose proof Fd as (Fd0 & Fd1 & Fd2). pose proof Fo as (Fo0 & Fo1). cbn [vx vy vz px py] in *.
  destruct (thresh2 d1 d0 o0 b Fd1 Fd0 Fo0 Lb B1 B0) as (c0 & Fc0 & S0 & _). rewrite delimit1_e.
  pose proof (fl_abs 53 1024 f64_prec f64_emax gsin gcos _ _ (fin_fl _ Fo0)) as A0.
  assert (D1 : follows s q (tri (vreal (mkV3 d0 d1 d2)) (mkV2 (B2R o0) 0)) a (b + 2.1 * (e * l))).
  { apply (follows_appr s q _ _ a b _ FO). unfold trif. eapply appr_le; [|apply appr_off1]. now rewrite Rminus_0_r. }
  destruct (o_ltb (o_mul eps (o_add (o_abs d1) (o_abs d0))) (o_abs o0)) eqn:C0; do 3 eexists; (split; [reflexivity|]); (split; [exact Fd|]); (split; [exact Fo|]).
  - right. right. left. cbn [px]. split; [reflexivity|]. split; [reflexivity|]. exact D1.
  - right. right. right. split; [reflexivity|]. split; [reflexivity|]. exists (vreal (mkV3 d0 d1 d2)).
    assert (H0 : Rabs (B2R o0) <= 2.1 * (e * l)). { apply S0. apply Rnot_lt_le. intros H. apply (fl_ltb 53 1024 f64_prec f64_emax gsin gcos _ _ _ _ Fc0 A0) in H. congruence. }
    apply (follows_le s q _ a (b + 2.1 * (e * l) + 2.1 * (e * l))); [|lra|lra].
    eapply follows_appr; [exact D1|]. eapply appr_le; [|apply appr_off0]. now rewrite Rminus_0_r.
Qed.

Lemma finv_step start fin d o q a b : a <= 0.4 -> b <= 1e-9 -> fin <> start -> finv start fin d o q a b ->
  exists d1 o1 q1 fin1 start2 fin2 o2, qr_step eps start fin (d, o, q) = Some (d1, o1, q1, fin1) /\
    delimit_subproblem d1 o1 fin1 eps = Some (start2, fin2, o2) /\ finv start2 fin2 d1 o2 q1 (a + 3e-14) (b + 2e-13).
Proof.
  intros La Lb NE (Fd & Fo & [(-> & -> & FO & G0 & G1)|[(-> & -> & Z & FO)|[(-> & -> & FO)|(-> & -> & _)]]]); [| | |congruence]; pose proof el_bound as EL.
  - destruct (follows_bounds q _ _ a b FO ltac:(lra)) as (B0 & B1 & B2 & Bo0 & Bo1).
    destruct d as [d0 d1 d2], o as [o0 o1]. unfold vreal, v2real in *. cbn [vx vy vz px py] in *. pose proof Fd as (Fd0 & Fd1 & Fd2). pose proof Fo as (Fo0 & Fo1). cbn [vx vy vz px py] in *.
    destruct (wilkinson_f gsin gcos d1 d2 o1 Fd1 Fd2 Fo1) as (w & Fw & Lw); [lra|lra|lra|].
    pose proof u64_le as U. pose proof tiny64_le as TI. pose proof big64_ge as BG.
    destruct (sub_err 53 1024 f64_prec f64_emax gsin gcos _ _ _ _ 10.5 (fin_fl _ Fd0) Fw) as (x & Fx & _ & Lx). { lra. } { pose proof (abs_sub_le (B2R d0) w 3.2 7 ltac:(lra) Lw). lra. } { lra. }
    destruct (chase_f gsin gcos s q _ d0 d1 d2 o0 o1 x a b l Bs ltac:(lra) ltac:(lra) ltac:(lra) Fx ltac:(lra) Fd Fo G0 G1 FO) as (d' & o' & q' & EC & Fd' & Fo' & FO').
    destruct (follows_bounds q' _ _ _ _ FO' ltac:(lra)) as (B0' & B1' & B2' & Bo0' & Bo1').
    rewrite step02_e, EC. pose proof Fd' as (Fd0' & Fd1' & Fd2'). pose proof Fo' as (Fo0' & Fo1').
    destruct (thresh2 (vz d') (vy d') (py o') (b + 2e-13) Fd2' Fd1' Fo1' ltac:(lra) B2' B1') as (c1 & Fc1 & S1 & _).
    pose proof (fl_abs 53 1024 f64_prec f64_emax gsin gcos _ _ (fin_fl _ Fo1')) as A1.
    destruct (o_leb _ _) eqn:C1.
    + apply (fl_leb 53 1024 f64_prec f64_emax gsin gcos _ _ _ _ A1 Fc1) in C1. specialize (S1 C1).
      destruct (finv_1 d' o' q' (a + 3e-14) (b + 2e-13) ltac:(lra) Fd' Fo' FO' S1) as (st & fi & o'' & D & I). do 7 eexists. split; [reflexivity|]. split; [exact D|exact I].
    + destruct (finv_2 d' o' q' (a + 3e-14) (b + 2e-13) ltac:(lra) Fd' Fo' FO') as (st & fi & o'' & D & I). do 7 eexists. split; [reflexivity|]. split; [exact D|exact I].
  - destruct (follows_bounds q _ _ _ _ FO ltac:(lra)) as (B0 & B1 & B2 & _ & Bo1). destruct FO as (Q & QN & AP).
    destruct d as [d0 d1 d2], o as [o0 o1]. unfold vreal, v2real in *. cbn [vx vy vz px py] in *. pose proof Fd as (Fd0 & Fd1 & Fd2). pose proof Fo as (Fo0 & Fo1). cbn [vx vy vz px py] in *. subst o0.
    destruct (eig2_f gsin gcos d1 o1 d2 Fd1 Fo1 Fd2) as (v1 & v2 & x & r & EV & Fv1 & Fv2 & Lv1 & Fx & R0 & Lx & RR & DX); [lra|lra|lra|].
    destruct (two_f1 gsin gcos s q Q _ a (o_sub v1 d2) o1 eps _ _ _ (B2R d0) x r e QN ltac:(lra) Fx (fin_fl _ Fo1) FE E1 Lx ltac:(lra) DX RR R0 AP) as (q' & l' & EG & FO').
    rewrite step12_e, EV, EG. do 7 eexists. split; [reflexivity|].
    assert (Fd' : vec_finite (mkV3 d0 v1 v2)) by (split; [exact Fd0|split; [exact Fv1|exact Fv2]]).
    destruct (thresh_f gsin gcos eps v1 d0 e _ _ FE E1 (fin_fl _ Fv1) (fin_fl _ Fd0)) as (c0 & Fc0 & C0 & _); [lra|lra|].
    split.
    { rewrite delimit1_e. replace (o_ltb (o_mul eps (o_add (o_abs v1) (o_abs d0))) (o_abs (o_zero : F))) with false; [reflexivity|]. symmetry. apply not_true_is_false. intros H.
      apply (fl_ltb 53 1024 f64_prec f64_emax gsin gcos _ _ _ _ Fc0 (fl_abs 53 1024 f64_prec f64_emax gsin gcos _ _ (fl_zero' 53 1024 f64_prec f64_emax gsin gcos))) in H. rewrite Rabs_R0 in H. lra. }
    split; [exact Fd'|]. split; [exact Fo|]. right. right. right. split; [reflexivity|]. split; [reflexivity|]. exists l'. apply (follows_le _ _ _ _ _ _ _ FO'); [lra|].
    assert (e <= e * l) by (rewrite <- (Rmult_1_r e) at 1; apply Rmult_le_compat_l; lra). lra.
  - destruct (follows_bounds q _ _ _ _ FO ltac:(lra)) as (B0 & B1 & B2 & Bo0 & _). destruct FO as (Q & QN & AP).
    destruct d as [d0 d1 d2], o as [o0 o1]. unfold vreal, v2real in *. cbn [vx vy vz px py] in *. pose proof Fd as (Fd0 & Fd1 & Fd2). pose proof Fo as (Fo0 & Fo1). cbn [vx vy vz px py] in *.
    destruct (eig2_f gsin gcos d0 o0 d1 Fd0 Fo0 Fd1) as (v1 & v2 & x & r & EV & Fv1 & Fv2 & Lv1 & Fx & R0 & Lx & RR & DX); [lra|lra|lra|].
    destruct (two_f0 gsin gcos s q Q _ a (o_sub v1 d1) o0 eps _ _ _ (B2R d2) x r e QN ltac:(lra) Fx (fin_fl _ Fo0) FE E1 Lx ltac:(lra) DX RR R0 AP) as (q' & l' & EG & FO').
    rewrite step01_e, EV, EG. do 7 eexists. split; [reflexivity|]. split; [apply delimit0_e|].
    split; [split; [exact Fv1|split; [exact Fv2|exact Fd2]]|]. split; [exact Fo|]. right. right. right. split; [reflexivity|]. split; [reflexivity|]. exists l'. apply (follows_le _ _ _ _ _ _ _ FO'); [lra|].
    assert (e <= e * l) by (rewrite <- (Rmult_1_r e) at 1; apply Rmult_le_compat_l; lra). lra.
Qed.

Lemma finv_end start fin d o q a b : finv start fin d o q a b -> fin = start -> exists l', follows s q (diagm l') a (b + 8 * (e * l)).
Proof. intros (_ & _ & [(-> & -> & _)|[(-> & -> & _)|[(-> & -> & _)|(_ & _ & H)]]]) E; try discriminate. exact H. Qed.
Lemma loop_f : forall left start fin d o q a b, finv start fin d o q a b -> a + INR left * 3e-14 <= 0.4 -> b + INR left * 2e-13 <= 1e-9 ->
  exists r, qr_loop eps left start fin (d, o, q) = Some r /\
    forall d' q', r = Some (d', q') -> exists l', follows s q' (diagm l') (a + INR left * 3e-14) (b + INR left * 2e-13 + 8 * (e * l)).
Proof.
  induction left as [|n IH]; intros start fin d o q a b I La Lb.
  - cbn [qr_loop]. destruct (Nat.eqb fin start) eqn:E; [|eexists; split; [reflexivity|discriminate]].
    apply Nat.eqb_eq in E. eexists. split; [reflexivity|]. intros d' q' H. injection H as <- <-. destruct (finv_end _ _ _ _ _ _ _ I E) as (l' & H).
    exists l'. apply (follows_le _ _ _ _ _ _ _ H); cbn [INR]; lra.
  - rewrite S_INR in *. pose proof (pos_INR n) as PN. cbn [qr_loop]. destruct (Nat.eqb fin start) eqn:E.
    + apply Nat.eqb_eq in E. eexists. split; [reflexivity|]. intros d' q' H. injection H as <- <-. destruct (finv_end _ _ _ _ _ _ _ I E) as (l' & H).
      exists l'. apply (follows_le _ _ _ _ _ _ _ H); lra.
    + apply Nat.eqb_neq in E. destruct (finv_step start fin d o q a b ltac:(lra) ltac:(lra) E I) as (d1 & o1 & q1 & fin1 & start2 & fin2 & o2 & -> & D & I2).
      cbn [bind]. rewrite D. cbn [bind]. destruct (Nat.eqb n 0); [eexists; split; [reflexivity|discriminate]|].
      destruct (IH _ _ _ _ _ _ _ I2 ltac:(lra) ltac:(lra)) as (r & ER & HR). exists r. split; [exact ER|]. intros d' q' H. destruct (HR d' q' H) as (l' & FO'). exists l'. apply (follows_le _ _ _ _ _ _ _ FO'); lra.
Qed.
End F64.
