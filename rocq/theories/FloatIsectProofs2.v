(** * FloatIsectProofs2.v - sums in double precision (C91) *)

From Coq Require Import ZArith Reals List Bool Lra Lia Psatz.
From Flocq Require Import Core BinarySingleNaN.
From Verif Require Import Scalar Linalg Bundles RayIntersection Spec SpecIsect SpecTri SpecFloatErr SpecFloatIsect RealBase VecLemmas FloatBase FloatRound FloatErrProofs FloatErrProofs2 FloatApprox FloatDirProofs IsectBase IsectProofs FloatIsectProofs.
Import ListNotations.

Section Sums.
Variables (prec emax : Z).
Local Notation T := (binary_float prec emax).
Variables gsin gcos : binary_float 53 1024 -> binary_float 53 1024.
Local Hint Extern 0 (Ops (binary_float 53 1024)) =>
  exact (B_ops 53 1024 f64_prec f64_emax gsin gcos) : typeclass_instances.
Local Open Scope R_scope.
Local Notation u := (bpow radix2 (- prec)).
Local Notation v := (bpow radix2 (- (53))).
Local Notation fl64 := (fl 53 1024).
Variable to64 : T -> option (binary_float 53 1024).
Hypothesis to64_exact : exact_to64 to64.

Lemma v_pos : 0 < v. Proof. apply bpow_gt_0. Qed.
Lemma v_le : v <= / 2048. Proof. apply (u11 53). lia. Qed.

Lemma sum_near (W e : R) (xs : list T) (as_ : list R) : 1 <= W -> 0 <= e <= W / 1000 ->
  Forall2 (fun x a => is_finite x = true /\ Rabs (B2R x - a) <= e /\ Rabs a <= W) xs as_ ->
  forall acc r s i, fl64 acc r -> Rabs (r - s) <= INR i * e + INR i * (INR i + 1) * v * W -> Rabs s <= INR i * W ->
  INR (i + length xs) <= 2 ^ 40 -> 4 * INR (i + length xs) * W < bpow radix2 1024 ->
  exists y r', sum_as_f64_acc to64 acc xs = Some y /\ fl64 y r' /\
    let n := INR (i + length xs) in Rabs (r' - (s + rsum as_)) <= n * e + n * (n + 1) * v * W /\ Rabs (s + rsum as_) <= n * W.
Proof.
  intros W1 Ee. induction 1 as [|x a xs as_ (FX & DX & AX) _ IH]; intros acc r s i A D SS NN BB.
  - cbn [length] in *. rewrite Nat.add_0_r. exists acc, r. split; [reflexivity|]. split; [exact A|]. cbv zeta.
    unfold rsum; cbn [fold_right]. rewrite Rplus_0_r. now split.
  - cbn [sum_as_f64_acc]. destruct (to64_exact x FX) as (y & -> & FY & EY). cbn [bind].
    cbn [length] in *. replace (i + S (length xs))%nat with (S i + length xs)%nat in * by lia.
    pose proof (pos_INR i) as I0. pose proof v_pos as V0.
    assert (In : INR (S i) <= 2 ^ 40) by (refine (Rle_trans _ _ _ (le_INR _ _ _) NN); lia).
    assert (In2 : 4 * INR (S i) * W < bpow radix2 1024).
    { eapply Rle_lt_trans; [|exact BB]. apply Rmult_le_compat_r; [lra|]. apply Rmult_le_compat_l; [lra|]. apply le_INR. lia. }
    rewrite S_INR in In, In2.
    assert (iv : (INR i + 1) * v <= / 2000).
    { assert (v2 : v <= / 2 ^ 53) by (simpl; lra). apply Rle_trans with (2 ^ 40 * / 2 ^ 53); [apply Rmult_le_compat; lra|]. simpl. lra. }
    assert (ivW : INR i * ((INR i + 1) * v) * W <= INR i * (W / 2000)).
    { replace (INR i * ((INR i + 1) * v) * W) with (INR i * (((INR i + 1) * v) * W)) by ring.
      apply Rmult_le_compat_l; [exact I0|]. unfold Rdiv. rewrite (Rmult_comm W). apply Rmult_le_compat_r; lra. }
    assert (D1 : Rabs (r + B2R y) <= 1.0016 * ((INR i + 1) * W)).
    { replace (r + B2R y) with ((r - s) + s + (B2R y - a) + a) by ring. rewrite <- EY in DX.
      eapply Rle_trans; [apply tri; [apply tri; [apply tri; eassumption|exact DX]|exact AX]|].
      assert (INR i * e <= INR i * (W / 1000)) by (apply Rmult_le_compat_l; lra). nra. }
    assert (iW : W <= (INR i + 1) * W) by nra.
    destruct (add_err 53 1024 f64_prec f64_emax gsin gcos acc y r (B2R y) (1.0016 * ((INR i + 1) * W)) A (fl_finite _ _ _ FY)) as (t & FT & DT & _).
    { apply Rle_trans with 1; [apply (bpow_le radix2 _ 0); lia|lra]. }
    { exact D1. } { pose proof v_le. nra. }
    destruct (IH (o_add acc y) t (s + a) (S i) FT) as (z & r' & Ez & Fz & Dz & Sz).
    + rewrite S_INR. replace (t - (s + a)) with ((t - (r + B2R y)) + ((r - s) + (B2R y - a))) by ring. rewrite <- EY in DX.
      eapply Rle_trans; [apply tri; [exact DT|apply tri; eassumption]|].
      assert (vW : 0 < v * W) by nra. nra.
    + rewrite S_INR. eapply Rle_trans; [apply tri; eassumption|]. lra.
    + exact NN.
    + exact BB.
    + exists z, r'. split; [exact Ez|]. split; [exact Fz|]. cbv zeta in *. unfold rsum in *. cbn [fold_right].
      rewrite <- Rplus_assoc. now split.
Qed.

Lemma sum_total {A} (W e : R) (l : list A) (f : A -> T) (g : A -> R) : 1 <= W -> 0 <= e <= W / 1000 ->
  Forall (fun a => is_finite (f a) = true /\ Rabs (B2R (f a) - g a) <= e /\ Rabs (g a) <= W) l ->
  INR (length l) <= 2 ^ 40 -> 4 * INR (length l) * W < bpow radix2 1024 ->
  exists y, sum_as_f64 to64 (map f l) = Some y /\ is_finite y = true /\
    let n := INR (length l) in Rabs (B2R y - rsum (map g l)) <= n * e + n * (n + 1) * v * W /\ Rabs (rsum (map g l)) <= n * W.
Proof.
  intros W1 Ee H N B.
  destruct (sum_near W e (map f l) (map g l) W1 Ee) with (acc := (o_zero : binary_float 53 1024)) (r := 0) (s := 0) (i := 0%nat) as (y & r' & Ey & (Fy & <-) & Dy).
  - clear - H. induction H; cbn [map]; [apply Forall2_nil|apply Forall2_cons; assumption].
  - apply fl_zero.
  - cbn [INR]. rewrite Rminus_0_r, Rabs_R0. lra.
  - cbn [INR]. rewrite Rabs_R0. lra.
  - now rewrite map_length.
  - now rewrite map_length.
  - exists y. split; [exact Ey|]. split; [exact Fy|]. rewrite map_length, Rplus_0_l in Dy. exact Dy.
Qed.
End Sums.
