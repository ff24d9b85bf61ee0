(** * FloatDirProofs2.v - points at a distance in double precision (C89) *)

From Coq Require Import ZArith Reals List Bool Lra Lia.
From Flocq Require Import Core BinarySingleNaN.
From Verif Require Import Scalar Linalg Bundles Spec SpecFloatErr FloatErrProofs FloatErrProofs2 FloatApprox FloatDirProofs.
Import ListNotations.
Local Open Scope R_scope.

Section F64.
Variables fsin fcos : f64 -> f64.
Local Hint Extern 0 (Ops f64) => exact (f64_ops fsin fcos) : typeclass_instances.

Lemma C89b_lemma {C} (dist : f64) (c d : V3 f64) dirs centers : sized 0 10000 dist ->
  (vec_sized 10000 c -> Forall (fun d : V3 f64 => vec_finite d /\ 1 / 1000 <= vlen (vreal d) <= 1000000) dirs ->
   exists pts, point_on_ray_at_distance (mkRayBundle (Coords := C) dirs (mkSO c)) dist = Some (mkPoints pts) /\
     Forall2 (fun d p => vec_near (2 / 100000000000) p (point_away c dist d)) dirs pts) /\
  (vec_finite d -> 1 / 1000 <= vlen (vreal d) <= 1000000 -> Forall (vec_sized 10000) centers ->
   exists pts, point_on_ray_at_distance (mkRayBundle (Coords := C) centers (mkSD d)) dist = Some (mkPoints pts) /\
     Forall2 (fun c p => vec_near (2 / 100000000000) p (point_away c dist d)) centers pts).
Proof.
  intros D.
  assert (B : forall l, 1 / 1000 <= l <= 1000000 -> bpow radix2 (- (20)) <= l <= bpow radix2 20).
  { intros l H. replace (bpow radix2 20) with 1048576 by (simpl; lra). replace (bpow radix2 (- (20))) with (/ 1048576) by (simpl; lra).
    assert (/ 1048576 <= / 1000) by (apply Rinv_le_contravar; lra). lra. }
  destruct (C89_lemma (C := C) 53 1024 f64_prec f64_emax fsin fcos ltac:(lia) 20 ltac:(lia) ltac:(lia) 10000 dist c d dirs centers range_f64 D) as (S & T).
  assert (W : forall (p : V3 f64) w, vec_near (9 * bpow radix2 (- (53)) * 10000) p w -> vec_near (2 / 100000000000) p w).
  { intros p w H. eapply vec_near_weak; [exact H|]. pose proof u_f64. lra. }
  split.
  - intros CC H. destruct (S CC) as (pts & Q & N).
    + eapply Forall_impl; [|exact H]. intros a (? & ?). split; [assumption|now apply B].
    + exists pts. split; [exact Q|]. eapply Forall2_impl'; [|exact N]. intros a p. apply W.
  - intros FD LD H. destruct (T FD (B _ LD) H) as (pts & Q & N).
    exists pts. split; [exact Q|]. eapply Forall2_impl'; [|exact N]. intros a p. apply W.
Qed.
End F64.
