(** * FloatIsectProofs5.v - ray intersection in single and double precision (C91) *)

From Coq Require Import ZArith Reals List Bool Lra Lia.
From Flocq Require Import Core BinarySingleNaN.
From Verif Require Import Scalar Linalg Bundles RayIntersection Convert Spec SpecIsect SpecTri SpecFloatErr SpecFloatIsect
  IsectProofs FloatErrProofs FloatErrProofs2 FloatIsectProofs4.
Import ListNotations.
Local Open Scope R_scope.

(** conversions *)
Lemma as_finite prec emax prec' emax' Hp He (x : binary_float prec emax) : is_finite x = true ->
  Rabs (round radix2 (SpecFloat.fexp prec' emax') ZnearestE (B2R x)) < bpow radix2 emax' ->
  is_finite (B_as prec emax prec' emax' Hp He x) = true /\
  B2R (B_as prec emax prec' emax' Hp He x) = round radix2 (SpecFloat.fexp prec' emax') ZnearestE (B2R x).
Proof.
  destruct x as [s| | |s m e b]; cbn [is_finite]; intros Fx; try discriminate.
  - intros _. split; [reflexivity|]. cbn [B_as B2R]. symmetry. apply round_0. apply valid_rnd_N.
  - cbn [B2R]. intros Bx. cbn [B_as]. pose proof (binary_normalize_correct prec' emax' Hp He mode_NE (cond_Zopp s (Zpos m)) e s) as C.
    cbv zeta in C. cbn [round_mode] in C. rewrite Rlt_bool_true in C by exact Bx. destruct C as (V & Fn & _). now split.
Qed.
Lemma f32_to_f64_exact : exact_to64 f32_to_f64.
Proof.
  intros x Fx. eexists. split; [reflexivity|].
  assert (G : generic_format radix2 (SpecFloat.fexp 53 1024) (B2R x)).
  { apply generic_inclusion_mag with (SpecFloat.fexp 24 128).
    - intros _. unfold SpecFloat.fexp, SpecFloat.emin. lia.
    - apply generic_format_B2R. }
  assert (Rx : round radix2 (SpecFloat.fexp 53 1024) ZnearestE (B2R x) = B2R x) by (apply round_generic; [apply valid_rnd_N|exact G]).
  rewrite <- Rx. apply as_finite; [exact Fx|]. rewrite Rx.
  eapply Rlt_trans; [apply abs_B2R_lt_emax|]. apply bpow_lt. lia.
Qed.
Lemma f64_to_f32_rounds : rounds_from64 f64_to_f32.
Proof. intros y Fy By. now apply as_finite. Qed.
Lemma id_exact : exact_to64 (fun x : f64 => Some x).
Proof. intros x Fx. exists x. now repeat split. Qed.
Lemma id_rounds : rounds_from64 (fun x : f64 => x).
Proof. intros y Fy _. split; [exact Fy|]. symmetry. apply round_generic; [apply valid_rnd_N|apply generic_format_B2R]. Qed.

Section F64.
Variables fsin fcos : f64 -> f64.
Local Hint Extern 0 (Ops f64) => exact (f64_ops fsin fcos) : typeclass_instances.

Lemma C91b_lemma {C} (rays : list (Ray C f64)) (svd : M33 f64 -> bool -> bool -> f64 -> nat -> option (SVD f64)) eta lam x :
  (2 <= length rays <= 10)%nat ->
  Forall (fun r => vec_sized 10000 (ray_center r) /\ vec_finite (ray_direction r) /\ 1 / 1000 <= vlen (vreal (ray_direction r)) <= 1000000) rays ->
  svd_near 20 eta (1 / 10 ^ 15) svd -> 0 <= eta <= lam / 3 ->
  1 / 100 <= lam -> spread lam (map ray_real rays) ->
  (forall y, sum_sq_dist (map ray_real rays) x <= sum_sq_dist (map ray_real rays) y) ->
  best_intersection_of_rays (fun x : f64 => Some x) (fun x : f64 => x) svd rays <> Some (Err SvdFailed) ->
  exists x', best_intersection_of_rays (fun x : f64 => Some x) (fun x : f64 => x) svd rays = Some (Ok (mkPoints [x'])) /\ vec_finite x' /\
    vdist (vreal x') x <= 4 / 10 ^ 6 + (1 / 10 ^ 10 + 2 * (eta / lam)) * vlen x.
Proof.
  intros (L2 & L10) RS SV ET LL SP MIN NF. pose proof u_f64 as U. assert (U0 : 0 < bpow radix2 (- (53))) by apply bpow_gt_0.
  set (n := INR (length rays)). assert (N2 : 2 <= n) by (apply (le_INR 2); exact L2).
  assert (N10 : n <= 10) by (unfold n; replace 10 with (INR 10) by (simpl; lra); now apply le_INR).
  set (kap := 1 / 10 ^ 15 * 2 ^ 53).
  assert (K : 0 <= kap <= 10) by (unfold kap; simpl; lra).
  assert (KV : kap * bpow radix2 (- (53)) = 1 / 10 ^ 15) by (unfold kap; replace (bpow radix2 (- (53))) with (/ 2 ^ 53) by (simpl; lra); field; lra).
  assert (b20 : bpow radix2 20 = 1048576) by (simpl; lra).
  assert (Eta : 3 * n * (25 * bpow radix2 (- (53)) + (n + 1) * bpow radix2 (- (53))) <= 2 / 10 ^ 13).
  { apply Rle_trans with (3 * 10 * (36 * bpow radix2 (- (53)))); [|lra]. apply Rmult_le_compat; nra. }
  assert (Eta0 : 0 < 3 * n * (25 * bpow radix2 (- (53)) + (n + 1) * bpow radix2 (- (53)))) by (apply Rmult_lt_0_compat; nra).
  assert (B20 : bpow radix2 (- (20)) <= 1 / 1000) by (replace (bpow radix2 (- (20))) with (/ 1048576) by (simpl; lra); lra).
  destruct (C91_lemma (C := C) 53 1024 f64_prec f64_emax fsin fcos fsin fcos ltac:(lia) ltac:(lia) 20 ltac:(lia) ltac:(lia)
    _ _ id_exact id_rounds 10000 rays) with (svd := svd) (eta := eta) (kappa := kap) (lam := lam) (x := x) as (x' & Q & FX & D); try assumption; try lra.
  - change (n * 10000 <= bpow radix2 20). rewrite b20. lra.
  - change (n <= 2 ^ 40). assert (10 <= 2 ^ 40) by (simpl; lra). lra.
  - eapply Forall_impl; [|exact RS]. intros r (H1 & H2 & H3). repeat split; try assumption; try apply H1; try apply H2; lra.
  - rewrite KV. intros m eps k d Hm. change (mat_sized (2 * n) m) in Hm. apply SV.
    unfold mat_sized, sized in *. repeat (match goal with H : _ /\ _ |- _ => destruct H end). repeat (split; try assumption; try lra).
  - change (cutoff + (eta + 3 * n * (25 * bpow radix2 (- (53)) + (n + 1) * bpow radix2 (- (53)))) < lam). pose proof cutoff_lt. lra.
  - exists x'. split; [exact Q|]. split; [exact FX|]. eapply Rle_trans; [exact D|]. change (INR (@length (Ray C (binary_float 53 1024)) rays)) with n.
    set (q := 3 * n * _) in *.
    assert (X0 : 0 <= vlen x) by apply sqrt_pos. 
    assert (L0 : 66 / 100 * lam <= lam - (eta + q)) by lra.
    assert (CC : n * 10000 * ((110 * kap + 700) * bpow radix2 (- (53)) + 6 * (n + 1) * bpow radix2 (- (53))) <= 25 / 10 ^ 9).
    { apply Rle_trans with (10 * 10000 * (1866 * bpow radix2 (- (53)))); [|lra]. apply Rmult_le_compat; nra. }
    set (cc := n * 10000 * _) in *. clearbody cc.
    assert (R0 : 0 <= eta / lam) by (apply Rmult_le_pos; [lra|left; apply Rinv_0_lt_compat; lra]).
    assert (RL : eta = eta / lam * lam) by (field; lra).
    set (D0 := lam - (eta + q)) in *. assert (DP : 0 < D0) by lra.
    apply (Rmult_le_reg_r D0); [exact DP|]. unfold Rdiv at 1. rewrite Rmult_assoc, Rinv_l, Rmult_1_r by lra.
    assert (X1 : 0 <= eta / lam * vlen x) by now apply Rmult_le_pos.
    apply Rle_trans with ((4 / 10 ^ 6 + (1 / 10 ^ 10 + 2 * (eta / lam)) * vlen x) * (66 / 100 * lam)).
    2: { apply Rmult_le_compat_l; [|exact L0]. apply Rplus_le_le_0_compat; [lra|]. apply Rmult_le_pos; lra. }
    assert (RG : forall A B r X K L : R, (A + (B + 2 * r) * X) * (K * L) = K * (A + B * X) * L + 2 * K * (r * L) * X) by (intros; ring).
    rewrite RG.
    rewrite <- RL.
    assert (H1 : 66 / 100 * (4 / 10 ^ 6 + 1 / 10 ^ 10 * vlen x) * (1 / 100) <= 66 / 100 * (4 / 10 ^ 6 + 1 / 10 ^ 10 * vlen x) * lam) by (apply Rmult_le_compat_l; lra).
    assert (H2 : q * vlen x <= 2 / 10 ^ 13 * vlen x) by (apply Rmult_le_compat_r; lra).
    assert (H3 : 0 <= eta * vlen x) by (apply Rmult_le_pos; lra). lra.
Qed.
End F64.
