(** * FloatSvdProofs29.v - proofs of C120 and C121: the decomposition and the intersection with the directions of the rays left open *)

From Coq Require Import ZArith Reals List Bool Lra Lia Psatz.
From Flocq Require Import Core BinarySingleNaN.
From Verif Require Import Scalar SymEigen Linalg Bundles Extrinsics Perspective Orthographic Camera RayIntersection Rows Convert Spec SpecGeom SpecIsect SpecTri SpecFloatErr SpecFloatIsect SpecFloatTri SpecSvd SpecFloatSvd SpecFloatSvd2 RealBase VecLemmas ExtrinsicsProofs IsectBase IsectProofs SpectralProofs TriProofs SymEigenProofs6 FloatBase FloatRound FloatErrProofs FloatErrProofs2 FloatApprox FloatRigidProofs FloatProjProofs FloatDirProofs FloatIsectProofs FloatIsectProofs2 FloatIsectProofs3 FloatIsectProofs4 FloatIsectProofs5 FloatViewProofs FloatWorldProofs FloatTriProofs FloatTriProofs2 FloatTriProofs3 FloatSvdProofs14 FloatSvdProofs15 FloatSvdProofs16 FloatSvdProofs22 FloatSvdProofs23 FloatSvdProofs24 FloatSvdProofs25 FloatSvdProofs26 FloatSvdProofs28.
Import ListNotations.
Local Open Scope R_scope.

Lemma C120_lemma (gsin gcos : f64 -> f64) (m : M33 f64) k : mat_finite m -> at_most k (mreal m) ->
  bpow radix2 (- (400)) <= k <= bpow radix2 400 -> pairs_at_least (49 / 100 * k ^ 2) (mreal m) ->
  exists d, @svd_ordered3 f64 (f64_ops gsin gcos) m true true (@lit_1em7 f64 (f64_ops gsin gcos)) 100 = Some (Some d) /\
    decomposes64 (29 / 10 ^ 7 * k) (1 / 10 ^ 11) m d.
Proof. intros FM AM SK PA. destruct (C116_lemma gsin gcos m k FM AM SK PA) as (d & ED & _ & H). exists d. split; [exact ED|exact H]. Qed.

Section C121.
Variables (prec emax : Z) (Hp : Prec_gt_0 prec) (He : Prec_lt_emax prec emax).
Variables fsin fcos : binary_float prec emax -> binary_float prec emax.
Variables gsin gcos : f64 -> f64.
Local Notation T := (binary_float prec emax).
Local Hint Extern 0 (Ops (binary_float prec emax)) =>
  exact (B_ops prec emax Hp He fsin fcos) : typeclass_instances.
Local Hint Extern 0 (Ops f64) => exact (f64_ops gsin gcos) : typeclass_instances.
Local Hint Extern 0 (Ops (binary_float 53 1024)) => exact (f64_ops gsin gcos) : typeclass_instances.
Local Notation u := (bpow radix2 (- prec)).
Local Notation v := (bpow radix2 (- (53))).

Lemma C121_lemma {C} (E : Z) (to64 : T -> option f64) (from64 : f64 -> T) M (rays : list (Ray C T)) :
  (24 <= prec <= 53)%Z -> (emax <= 1024)%Z -> (0 <= E)%Z -> (2 * E + 34 <= emax)%Z -> exact_to64 to64 -> rounds_from64 from64 ->
  let n := INR (length rays) in
  1 <= M -> n * M <= bpow radix2 E -> n <= 2 ^ 36 -> (2 <= length rays)%nat -> Forall (ray_sized E M) rays ->
  exists x, best_intersection_of_rays to64 from64 svd3_try_new rays = Some (Ok (mkPoints [x])) /\ vec_finite x /\ vlen (vreal x) <= 10 ^ 9 * (n * M).
Proof.
  intros P24 E1024 E0 E2 TX FR n M1 NM N36 L2 RS.
  assert (N2 : 2 <= n) by (apply (le_INR 2); exact L2).
  assert (ND : nonzero_dirs (map ray_real rays)).
  { unfold nonzero_dirs. rewrite Forall_map. eapply Forall_impl; [|exact RS]. intros r Hr. cbn [ray_real ray_direction].
    now apply (ray_sized_dir prec emax E M). }
  assert (N40 : n <= 2 ^ 40) by (assert (2 ^ 36 <= 2 ^ 40) by (simpl; lra); lra).
  assert (UW : u <= / 16000000) by (pose proof (u_small prec P24); lra).
  apply (isect_finite prec emax Hp He fsin fcos gsin gcos P24 E1024 E E0 E2 to64 from64 TX FR (/ 16000000) UW (Rle_refl _) M rays M1 NM N40 L2 RS
    svd3_try_new (29 / 10 ^ 7 * (n + 3 * (n * (25 * u + (n + 1) * v))))).
  pose proof (delta_small prec n P24 N2 N36) as DS. fold n. set (delta := 25 * u + (n + 1) * v) in *.
  intros S SZ MC. assert (LR : INR (length (map (@ray_real prec emax C) rays)) = n) by (rewrite map_length; reflexivity).
  assert (NDN : 0 <= n * delta <= n / 60000) by (split; [apply Rmult_le_pos; lra|apply Rmult_le_compat_l; lra]).
  destruct (normal_ok (map ray_real rays) (n * delta) S ND) as (H1 & H2 & H3 & H4); rewrite ?LR; try assumption.
  rewrite LR in *. destruct (C116_lemma gsin gcos S _ H1 H2 H3 H4) as (d & ED & _ & G). exists d. split; [exact (svd3_ok _ _ _ _ ED)|].
  destruct G as (fu & fvt & UU & Vt & G1 & G2 & G3 & G4 & G5 & G6 & G7 & G8 & G9 & G10 & G11).
  exists fu, fvt, UU, Vt. split; [exact G1|]. split; [exact G2|]. split; [exact G3|]. split; [exact G4|].
  assert (MW : forall (m : M33 f64) a, SpecFloatIsect.mat_near (1 / 10 ^ 11) m a -> SpecFloatIsect.mat_near (/ 16000000) m a).
  { intros m a H. unfold SpecFloatIsect.mat_near, SpecFloatErr.near in *. repeat split; try apply H; (eapply Rle_trans; [apply H|lra]). }
  split; [now apply MW|]. split; [now apply MW|]. do 4 (split; [assumption|]). exact G11.
Qed.
End C121.

Section F64.
Variables fsin fcos : f64 -> f64.
Variables hsin hcos : f32 -> f32.
Local Hint Extern 0 (Ops f64) => exact (f64_ops fsin fcos) : typeclass_instances.
Local Hint Extern 0 (Ops f32) => exact (f32_ops hsin hcos) : typeclass_instances.
Local Hint Extern 0 (Ops (binary_float 53 1024)) => exact (f64_ops fsin fcos) : typeclass_instances.
Local Hint Extern 0 (Ops (binary_float 24 128)) => exact (f32_ops hsin hcos) : typeclass_instances.

Lemma C121a_lemma {C} M (rays : list (Ray C f64)) :
  let n := INR (length rays) in
  (2 <= length rays)%nat -> n <= 1000000 -> 1 <= M <= 10 ^ 9 ->
  Forall (fun r => vec_sized M (ray_center r) /\ vec_finite (ray_direction r) /\ 1 / 10 ^ 9 <= vlen (vreal (ray_direction r)) <= 10 ^ 9) rays ->
  exists x', best_intersection_of_rays (fun x : f64 => Some x) (fun x : f64 => x) svd3_try_new rays = Some (Ok (mkPoints [x'])) /\
    vec_finite x' /\ vlen (vreal x') <= 10 ^ 9 * (n * M).
Proof.
  intros n L2 N6 M1 RS.
  assert (N2 : 2 <= n) by (apply (le_INR 2); exact L2).
  assert (b60 : bpow radix2 60 = 1152921504606846976) by (simpl; lra).
  assert (B60 : bpow radix2 (- (60)) <= 1 / 10 ^ 9) by (rewrite bpow_opp, b60; lra).
  assert (RS' : Forall (ray_sized 60 M) rays).
  { eapply Forall_impl; [|exact RS]. intros r (H1 & H2 & H3). split; [exact H1|]. split; [exact H2|]. split; [lra|]. rewrite b60. lra. }
  assert (NM : n * M <= bpow radix2 60) by (rewrite b60; apply Rle_trans with (1000000 * 10 ^ 9); [apply Rmult_le_compat; lra|lra]).
  assert (N36 : n <= 2 ^ 36) by (simpl; lra).
  exact (C121_lemma 53 1024 f64_prec f64_emax fsin fcos fsin fcos 60 (fun x : f64 => Some x) (fun x : f64 => x) M rays ltac:(lia) ltac:(lia) ltac:(lia) ltac:(lia) id_exact id_rounds ltac:(apply M1) NM N36 L2 RS').
Qed.
Lemma C121b_lemma {C} M (rays : list (Ray C f32)) :
  let n := INR (length rays) in
  (2 <= length rays)%nat -> n <= 1000000 -> 1 <= M <= 10 ^ 6 ->
  Forall (fun r => vec_sized M (ray_center r) /\ vec_finite (ray_direction r) /\ 1 / 10 ^ 9 <= vlen (vreal (ray_direction r)) <= 10 ^ 9) rays ->
  exists x', best_intersection_of_rays f32_to_f64 f64_to_f32 svd3_try_new rays = Some (Ok (mkPoints [x'])) /\
    vec_finite x' /\ vlen (vreal x') <= 10 ^ 9 * (n * M).
Proof.
  intros n L2 N6 M1 RS.
  assert (N2 : 2 <= n) by (apply (le_INR 2); exact L2).
  assert (b40 : bpow radix2 47 = 140737488355328) by (simpl; lra).
  assert (B40 : bpow radix2 (- (47)) <= 1 / 10 ^ 9) by (rewrite bpow_opp, b40; lra).
  assert (RS' : Forall (ray_sized 47 M) rays).
  { eapply Forall_impl; [|exact RS]. intros r (H1 & H2 & H3). split; [exact H1|]. split; [exact H2|]. split; [lra|]. rewrite b40. lra. }
  assert (NM : n * M <= bpow radix2 47) by (rewrite b40; apply Rle_trans with (1000000 * 10 ^ 6); [apply Rmult_le_compat; lra|lra]).
  assert (N36 : n <= 2 ^ 36) by (simpl; lra).
  exact (C121_lemma 24 128 f32_prec f32_emax hsin hcos fsin fcos 47 f32_to_f64 f64_to_f32 M rays ltac:(lia) ltac:(lia) ltac:(lia) ltac:(lia) f32_to_f64_exact f64_to_f32_rounds ltac:(apply M1) NM N36 L2 RS').
Qed.
End F64.
