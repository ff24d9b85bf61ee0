(** * FloatSvdProofs15.v - intersection of rays with the rounded singular value decomposition, continued (C111) *)

From Coq Require Import ZArith Reals List Bool Lra Lia Psatz.
From Flocq Require Import Core BinarySingleNaN.
From Verif Require Import Scalar Linalg Bundles RayIntersection Convert SymEigen Spec SpecIsect SpecTri SpecFloatErr SpecFloatIsect SpecSvd SpecFloatSvd RealBase VecLemmas ExtrinsicsProofs FloatBase FloatErrProofs2 IsectBase IsectProofs TriProofs SymEigenProofs6 FloatIsectProofs FloatIsectProofs2 FloatIsectProofs4 FloatIsectProofs5 FloatSvdProofs13 FloatSvdProofs14.
Import ListNotations.
Local Open Scope R_scope.

(** the condition number of a matrix near that of the normal equations *)
Lemma close_most e m s k : 0 <= e -> mclose e m s -> at_most k s -> at_most (k + 3 * e) m.
Proof.
  intros E0 MC A x. pose proof (mclose_mv e m s x E0 MC) as Q. unfold vdist in Q. specialize (A x).
  replace (mv m x) with (vadd (vsub (mv m x) (mv s x)) (mv s x)) by (generalize (mv m x) (mv s x); intros; vring).
  eapply Rle_trans; [apply vlen_triangle|]. lra.
Qed.
Lemma close_least e m s k : 0 <= e -> mclose e m s -> at_least k s -> at_least (k - 3 * e) m.
Proof.
  intros E0 MC A x. pose proof (mclose_mv e m s x E0 MC) as Q. unfold vdist in Q. specialize (A x).
  assert (vlen (mv s x) <= vlen (vsub (mv m x) (mv s x)) + vlen (mv m x)); [|lra].
  replace (mv s x) with (vadd (vscl (-1) (vsub (mv m x) (mv s x))) (mv m x)) at 1 by (generalize (mv m x) (mv s x); intros; vring).
  eapply Rle_trans; [apply vlen_triangle|]. rewrite vlen_vscl, Rabs_left by lra. lra.
Qed.

Lemma svd3_of {T} {OT : Ops T} (m : M33 T) eps n r d : svd_ordered3 m true true eps n = Some r -> svd3_try_new m true true eps n = Some d -> r = Some d.
Proof. intros E H. unfold svd3_try_new in H. rewrite E in H. exact H. Qed.
Lemma svd_actual (gsin gcos : f64 -> f64) (S : M33 f64) k lam d : mat_finite S -> at_most k (mreal S) -> at_least lam (mreal S) -> 0 < lam -> k <= 300 * lam ->
  bpow radix2 (- (400)) <= k <= bpow radix2 400 -> @svd3_try_new f64 (f64_ops gsin gcos) S true true (@lit_1em7 f64 (f64_ops gsin gcos)) 100 = Some d ->
  decomposes64 (27 / 10 ^ 7 * (k / lam) * k) (1 / 10 ^ 11) S d.
Proof.
  intros FM AM AL L0 KL SK ES.
  assert (H : exists r, @svd_ordered3 f64 (f64_ops gsin gcos) S true true (@lit_1em7 f64 (f64_ops gsin gcos)) 100 = Some r /\ forall d, r = Some d ->
    decomposes64 (27 / 10 ^ 7 * (k / lam) * k) (1 / 10 ^ 11) S d) by exact (C110_lemma gsin gcos S k lam 100 FM AM AL L0 KL SK (le_n _)).
  destruct H as (r & ER & HR). exact (HR d (svd3_of _ _ _ _ _ ER ES)).
Qed.

Section Main.
Variables (prec emax : Z) (Hp : Prec_gt_0 prec) (He : Prec_lt_emax prec emax).
Variables fsin fcos : binary_float prec emax -> binary_float prec emax.
Variables gsin gcos : f64 -> f64.
Local Notation T := (binary_float prec emax).
Local Hint Extern 0 (Ops (binary_float prec emax)) =>
  exact (B_ops prec emax Hp He fsin fcos) : typeclass_instances.
Local Hint Extern 0 (Ops f64) => exact (f64_ops gsin gcos) : typeclass_instances.
Local Notation u := (bpow radix2 (- prec)).
Local Notation v := (bpow radix2 (- (53))).
Hypotheses (P24 : (24 <= prec <= 53)%Z) (E1024 : (emax <= 1024)%Z).
Variable E : Z.
Hypotheses (E0 : (0 <= E)%Z) (E2 : (2 * E + 34 <= emax)%Z).
Variables (to64 : T -> option f64) (from64 : f64 -> T).
Hypotheses (to64_exact : exact_to64 to64) (from64_rounds : rounds_from64 from64).
Variables (om : R).
Hypotheses (UW : u <= om) (WS : om <= / 16000000) (OM : 1 / 10 ^ 11 <= om).

Lemma C111_lemma {C} M (rays : list (Ray C T)) lam x :
  let n := INR (length rays) in
  1 <= M -> n * M <= bpow radix2 E -> n <= 2 ^ 36 -> (2 <= length rays)%nat -> Forall (ray_sized E M) rays ->
  n <= 250 * lam -> spread lam (map ray_real rays) ->
  (forall y, sum_sq_dist (map ray_real rays) x <= sum_sq_dist (map ray_real rays) y) ->
  let best := best_intersection_of_rays to64 from64 svd3_try_new rays in
  let eta := 3 / 10 ^ 6 * (n / lam) * n + 3 * n * (25 * u + (n + 1) * v) in
  best <> Some (Err SvdFailed) ->
  exists x', best = Some (Ok (mkPoints [x'])) /\ vec_finite x' /\
    vdist (vreal x') x <= (eta * vlen x + n * M * (810 * om + 6 * (n + 1) * v)) / (lam - eta).
Proof.
  intros n M1 NM N36 L2 RS NL SP MIN best eta NF.
  assert (N2 : 2 <= n) by (apply (le_INR 2); exact L2).
  assert (L0 : 0 < lam) by lra.
  assert (ND : nonzero_dirs (map ray_real rays)).
  { unfold nonzero_dirs. rewrite Forall_map. eapply Forall_impl; [|exact RS]. intros r Hr. cbn [ray_real ray_direction].
    now apply (ray_sized_dir prec emax E M). }
  pose proof (spread_le lam _ ND SP) as LN. rewrite map_length in LN. fold n in LN.
  assert (U0 : 0 < u) by apply bpow_gt_0. assert (V0 : 0 < v) by apply bpow_gt_0.
  set (delta := 25 * u + (n + 1) * v) in *.
  assert (DS : 0 < delta <= / 60000).
  { assert (u <= / 16000000) by lra. assert (v2 : v <= / 2 ^ 53) by (simpl; lra).
    assert (0 < (n + 1) * v) by (apply Rmult_lt_0_compat; lra).
    assert ((n + 1) * v <= / 120000) by (apply Rle_trans with ((2 ^ 36 + 1) * / 2 ^ 53); [apply Rmult_le_compat; lra|simpl; lra]).
    unfold delta. lra. }
  assert (ND0 : 0 <= n * delta) by (apply Rmult_le_pos; lra).
  assert (NDL : n * delta <= lam / 240) by (apply Rle_trans with (250 * lam * / 60000); [apply Rmult_le_compat; lra|lra]).
  assert (NDN : n * delta <= n / 60000) by (apply Rmult_le_compat_l; lra).
  set (q := n / lam). assert (Q1 : n = q * lam) by (unfold q; field; lra). assert (Q2 : 1 <= q <= 250) by (split; apply (Rmult_le_reg_r lam); lra).
  assert (ET : 3 / 10 ^ 6 * q * n = 3 / 10 ^ 6 * (q * q) * lam) by (rewrite Q1 at 1; ring).
  assert (ET2 : 3 / 10 ^ 6 * q * n <= 19 / 100 * lam).
  { rewrite ET. apply Rmult_le_compat_r; [lra|]. assert (q * q <= 250 * 250) by (apply Rmult_le_compat; lra). lra. }
  pose proof cutoff_lt as CL.
  unfold best, eta in *. replace (3 * n * delta) with (3 * (n * delta)) in * by ring.
  destruct (isect_actual prec emax Hp He fsin fcos gsin gcos P24 E1024 E E0 E2 to64 from64 to64_exact from64_rounds om UW WS M rays) with
   (svd := @svd3_try_new f64 (f64_ops gsin gcos)) (eta := 3 / 10 ^ 6 * q * n) (lam := lam) (x := x) as (x' & R1 & R2 & R3); try assumption.
  - fold n. assert (2 ^ 36 <= 2 ^ 40) by (simpl; lra). lra.
  - apply Rmult_le_pos; lra.
  - fold n. fold delta. intros S d SZ MC ES.
    assert (AM := close_most _ _ _ _ ND0 MC (Smat_at_most _ ND)). rewrite map_length in AM. fold n in AM.
    assert (AL := close_least _ _ _ _ ND0 MC (Smat_at_least _ lam ND SP)).
    destruct (svd_actual gsin gcos S (n + 3 * (n * delta)) (lam - 3 * (n * delta)) d) as (fu & fvt & UU & Vt & H1 & H2 & H3 & H4 & H5 & H6 & H7 & H8 & H9 & H10 & H11).
    + unfold mat_sized, sized in SZ. repeat split; apply SZ.
    + exact AM.
    + exact AL.
    + lra.
    + lra.
    + split; [apply Rle_trans with 1; [apply (bpow_le radix2 _ 0); lia|lra]|].
      apply Rle_trans with (bpow radix2 37); [simpl; simpl in N36; lra|apply bpow_le; lia].
    + exact ES.
    +
      exists fu, fvt, UU, Vt. split; [exact H1|]. split; [exact H2|]. split; [exact H3|]. split; [exact H4|].
      assert (MW : forall (m : M33 f64) a, mat_near (1 / 10 ^ 11) m a -> mat_near om m a).
      { intros m a H. unfold mat_near, near in *. repeat split; try apply H; (eapply Rle_trans; [apply H|exact OM]). }
      split; [now apply MW|]. split; [now apply MW|]. do 4 (split; [assumption|]).
      intros y. eapply Rle_trans; [apply H11|]. apply Rmult_le_compat_r; [apply vlen_nonneg|].
      set (kk := n + 3 * (n * delta)). set (ll := lam - 3 * (n * delta)).
      assert (KK : 0 <= kk <= n * (1 + 1 / 20000)) by (unfold kk; lra). assert (LL : lam * (237 / 240) <= ll) by (unfold ll; lra).
      assert (QQ : kk / ll <= q * (103 / 100)).
      { apply (Rmult_le_reg_r ll); [lra|]. unfold Rdiv at 1. rewrite Rmult_assoc, Rinv_l, Rmult_1_r by lra.
        apply Rle_trans with (q * (103 / 100) * (lam * (237 / 240))); [|apply Rmult_le_compat_l; lra].
        replace (q * (103 / 100) * (lam * (237 / 240))) with (103 / 100 * (237 / 240) * n) by (rewrite Q1; ring). lra. }
      assert (QP : 0 <= kk / ll) by (apply Rmult_le_pos; [lra|left; apply Rinv_0_lt_compat; lra]).
      apply Rle_trans with (27 / 10 ^ 7 * (q * (103 / 100)) * (n * (1 + 1 / 20000))).
      * apply Rmult_le_compat; [apply Rmult_le_pos; lra|lra| |lra]. apply Rmult_le_compat_l; lra.
      * assert (0 <= q * n) by (apply Rmult_le_pos; lra). lra.
  - change (cutoff + (3 / 10 ^ 6 * q * n + 3 * n * delta) < lam). replace (3 * n * delta) with (3 * (n * delta)) by ring. lra.
  - exists x'. split; [exact R1|]. split; [exact R2|]. eapply Rle_trans; [exact R3|]. fold n. fold delta. right. replace (3 * (n * delta)) with (3 * n * delta) by ring. reflexivity.
Qed.
End Main.

(** ** Double and single precision *)
Lemma final_bound n lam M x eta d c1 c2 w t : 1 <= M -> 0 < lam -> n <= 100 * lam -> lam <= n -> 0 <= x -> 0 <= w ->
  eta = 3 / 10 ^ 6 * (n / lam) * n + 3 * n * w -> w <= c1 / 10 ^ 6 -> 0 <= c1 <= 16 / 10 -> d <= c2 -> 0 <= c2 ->
  t <= (eta * x + n * M * d) / (lam - eta) ->
  t <= 33 / 10 * (1 + c1) / 10 ^ 6 * (n / lam) ^ 2 * x + 11 / 10 * c2 * M * (n / lam).
Proof.
  intros M1 L0 NL LN X0 W0 -> WC C1 DC C2 T. set (q := n / lam) in *. assert (Q1 : n = q * lam) by (unfold q; field; lra).
  assert (Q2 : 1 <= q <= 100) by (split; apply (Rmult_le_reg_r lam); lra).
  clearbody q.
  assert (QQ : 1 <= q * q <= 10000) by (split; [|apply Rle_trans with (100 * 100); [apply Rmult_le_compat; lra|lra]]; apply Rle_trans with (1 * 1); [lra|apply Rmult_le_compat; lra]).
  assert (QQ2 : q <= q * q) by (rewrite <- (Rmult_1_r q) at 1; apply Rmult_le_compat_l; lra).
  set (e := 3 / 10 ^ 6 * q * n + 3 * n * w) in *.
  assert (EE : e <= lam * (3 * (1 + c1) / 10 ^ 6 * (q * q))).
  { unfold e. rewrite Q1. replace (3 / 10 ^ 6 * q * (q * lam) + 3 * (q * lam) * w) with (lam * (3 / 10 ^ 6 * (q * q) + 3 * (q * w))) by ring.
    apply Rmult_le_compat_l; [lra|]. assert (q * w <= (q * q) * (c1 / 10 ^ 6)) by (apply Rmult_le_compat; lra). lra. }
  assert (E2 : e <= lam * (8 / 100)).
  { eapply Rle_trans; [exact EE|]. apply Rmult_le_compat_l; [lra|]. apply Rle_trans with (78 / 10 ^ 7 * 10000); [apply Rmult_le_compat; lra|lra]. }
  set (b := 33 / 10 * (1 + c1) / 10 ^ 6 * (q * q) * x + 11 / 10 * c2 * M * q).
  replace (33 / 10 * (1 + c1) / 10 ^ 6 * q ^ 2 * x + 11 / 10 * c2 * M * q) with b by (unfold b; ring).
  assert (P1 : 0 <= (1 + c1) / 10 ^ 6 * (q * q) * x) by (apply Rmult_le_pos; [apply Rmult_le_pos|]; lra).
  assert (P2 : 0 <= c2 * M * q) by (apply Rmult_le_pos; [apply Rmult_le_pos|]; lra).
  assert (B0 : 0 <= b) by (unfold b; lra).
  eapply Rle_trans; [exact T|]. apply (Rmult_le_reg_r (lam - e)); [lra|]. unfold Rdiv at 1. rewrite Rmult_assoc, Rinv_l, Rmult_1_r by lra.
  apply Rle_trans with (b * (lam * (92 / 100))); [|apply Rmult_le_compat_l; lra].
  apply Rle_trans with (lam * (3 * (1 + c1) / 10 ^ 6 * (q * q)) * x + n * M * c2).
  - apply Rplus_le_compat; [apply Rmult_le_compat_r; lra|]. apply Rmult_le_compat_l; [apply Rmult_le_pos; lra|lra].
  - replace (lam * (3 * (1 + c1) / 10 ^ 6 * (q * q)) * x + n * M * c2) with (lam * (3 * ((1 + c1) / 10 ^ 6 * (q * q) * x) + c2 * M * q)) by (rewrite Q1; field).
    replace (b * (lam * (92 / 100))) with (lam * (92 / 100 * b)) by ring. apply Rmult_le_compat_l; [lra|]. unfold b. lra.
Qed.

Section F64.
Variables fsin fcos : f64 -> f64.
Variables hsin hcos : f32 -> f32.
Local Hint Extern 0 (Ops f64) => exact (f64_ops fsin fcos) : typeclass_instances.
Local Hint Extern 0 (Ops f32) => exact (f32_ops hsin hcos) : typeclass_instances.

Lemma C111b_lemma {C} M (rays : list (Ray C f64)) lam x :
  let n := INR (length rays) in
  (2 <= length rays)%nat -> n <= 1000000 -> 1 <= M <= 10 ^ 9 ->
  Forall (fun r => vec_sized M (ray_center r) /\ vec_finite (ray_direction r) /\ 1 / 10 ^ 9 <= vlen (vreal (ray_direction r)) <= 10 ^ 9) rays ->
  n <= 100 * lam -> spread lam (map ray_real rays) ->
  (forall y, sum_sq_dist (map ray_real rays) x <= sum_sq_dist (map ray_real rays) y) ->
  let best := best_intersection_of_rays (fun x : f64 => Some x) (fun x : f64 => x) svd3_try_new rays in
  best <> Some (Err SvdFailed) ->
  exists x', best = Some (Ok (mkPoints [x'])) /\ vec_finite x' /\
    vdist (vreal x') x <= 34 / 10 ^ 7 * (n / lam) ^ 2 * vlen x + 1 / 10 ^ 8 * (n / lam) * M.
Proof.
  intros n L2 N6 M1 RS NL SP MIN best NF. pose proof u_f64 as U. assert (U0 : 0 < bpow radix2 (- (53))) by apply bpow_gt_0.
  assert (N2 : 2 <= n) by (apply (le_INR 2); exact L2). assert (L0 : 0 < lam) by lra.
  assert (b60 : bpow radix2 60 = 1152921504606846976) by (simpl; lra).
  assert (B60 : bpow radix2 (- (60)) <= 1 / 10 ^ 9) by (rewrite bpow_opp, b60; lra).
  assert (RS' : Forall (ray_sized 60 M) rays).
  { eapply Forall_impl; [|exact RS]. intros r (H1 & H2 & H3). split; [exact H1|]. split; [exact H2|]. split; [lra|]. rewrite b60. lra. }
  assert (NM : n * M <= bpow radix2 60) by (rewrite b60; apply Rle_trans with (1000000 * 10 ^ 9); [apply Rmult_le_compat; lra|lra]).
  destruct (C111_lemma 53 1024 f64_prec f64_emax fsin fcos fsin fcos ltac:(lia) ltac:(lia) 60 ltac:(lia) ltac:(lia)
    (fun x : f64 => Some x) (fun x : f64 => x) id_exact id_rounds (1 / 10 ^ 11) ltac:(lra) ltac:(lra) ltac:(lra) M rays lam x ltac:(apply M1) NM) as (x' & R1 & R2 & R3); try assumption.
  - change (n <= 2 ^ 36). simpl. lra.
  - change (n <= 250 * lam). lra.
  - exists x'. split; [exact R1|]. split; [exact R2|].
    assert (ND : nonzero_dirs (map ray_real rays)).
    { unfold nonzero_dirs. rewrite Forall_map. eapply Forall_impl; [|exact RS']. intros r Hr. cbn [ray_real ray_direction]. now apply (ray_sized_dir 53 1024 60 M). }
    pose proof (spread_le lam _ ND SP) as LN. rewrite map_length in LN. change (lam <= n) in LN. fold n in R3.
    pose proof (final_bound n lam M (vlen x) _ (810 * (1 / 10 ^ 11) + 6 * (n + 1) * bpow radix2 (- (53))) (1 / 100) (88 / 10 ^ 10) (25 * bpow radix2 (- (53)) + (n + 1) * bpow radix2 (- (53))) (vdist (vreal x') x) ltac:(apply M1) L0 NL LN ltac:(apply vlen_nonneg) ltac:(nra) eq_refl) as FB.
    assert (Q : (n + 1) * bpow radix2 (- (53)) <= 1000001 * bpow radix2 (- (53))) by (apply Rmult_le_compat_r; lra).
    eapply Rle_trans; [apply FB; [lra|lra|lra|lra|exact R3]|].
    assert (0 <= (n / lam)) by (apply Rmult_le_pos; [lra|left; now apply Rinv_0_lt_compat]).
    assert (0 <= (n / lam) ^ 2 * vlen x) by (apply Rmult_le_pos; [apply pow_le; lra|apply vlen_nonneg]).
    assert (0 <= (n / lam) * M) by (apply Rmult_le_pos; lra). lra.
Qed.
Lemma C111c_lemma {C} M (rays : list (Ray C f32)) lam x :
  let n := INR (length rays) in
  (2 <= length rays)%nat -> n <= 1000000 -> 1 <= M <= 10 ^ 6 ->
  Forall (fun r => vec_sized M (ray_center r) /\ vec_finite (ray_direction r) /\ 1 / 10 ^ 9 <= vlen (vreal (ray_direction r)) <= 10 ^ 9) rays ->
  n <= 100 * lam -> spread lam (map ray_real rays) ->
  (forall y, sum_sq_dist (map ray_real rays) x <= sum_sq_dist (map ray_real rays) y) ->
  let best := best_intersection_of_rays f32_to_f64 f64_to_f32 svd3_try_new rays in
  best <> Some (Err SvdFailed) ->
  exists x', best = Some (Ok (mkPoints [x'])) /\ vec_finite x' /\
    vdist (vreal x') x <= 85 / 10 ^ 7 * (n / lam) ^ 2 * vlen x + 6 / 10 ^ 5 * (n / lam) * M.
Proof.
  intros n L2 N6 M1 RS NL SP MIN best NF. pose proof u_f64 as U. assert (U0 : 0 < bpow radix2 (- (53))) by apply bpow_gt_0.
  assert (U24 : bpow radix2 (- (24)) = / 16777216) by (simpl; lra).
  assert (N2 : 2 <= n) by (apply (le_INR 2); exact L2). assert (L0 : 0 < lam) by lra.
  assert (b40 : bpow radix2 47 = 140737488355328) by (simpl; lra).
  assert (B40 : bpow radix2 (- (47)) <= 1 / 10 ^ 9) by (rewrite bpow_opp, b40; lra).
  assert (RS' : Forall (ray_sized 47 M) rays).
  { eapply Forall_impl; [|exact RS]. intros r (H1 & H2 & H3). split; [exact H1|]. split; [exact H2|]. split; [lra|]. rewrite b40. lra. }
  assert (NM : n * M <= bpow radix2 47) by (rewrite b40; apply Rle_trans with (1000000 * 10 ^ 6); [apply Rmult_le_compat; lra|lra]).
  destruct (C111_lemma 24 128 f32_prec f32_emax hsin hcos fsin fcos ltac:(lia) ltac:(lia) 47 ltac:(lia) ltac:(lia)
    f32_to_f64 f64_to_f32 f32_to_f64_exact f64_to_f32_rounds (bpow radix2 (- (24))) ltac:(lra) ltac:(lra) ltac:(lra) M rays lam x ltac:(apply M1) NM) as (x' & R1 & R2 & R3); try assumption.
  - change (n <= 2 ^ 36). simpl. lra.
  - change (n <= 250 * lam). lra.
  - exists x'. split; [exact R1|]. split; [exact R2|].
    assert (ND : nonzero_dirs (map ray_real rays)).
    { unfold nonzero_dirs. rewrite Forall_map. eapply Forall_impl; [|exact RS']. intros r Hr. cbn [ray_real ray_direction]. now apply (ray_sized_dir 24 128 47 M). }
    pose proof (spread_le lam _ ND SP) as LN. rewrite map_length in LN. change (lam <= n) in LN. fold n in R3.
    pose proof (final_bound n lam M (vlen x) _ (810 * bpow radix2 (- (24)) + 6 * (n + 1) * bpow radix2 (- (53))) (15 / 10) (49 / 10 ^ 6) (25 * bpow radix2 (- (24)) + (n + 1) * bpow radix2 (- (53))) (vdist (vreal x') x) ltac:(apply M1) L0 NL LN ltac:(apply vlen_nonneg) ltac:(nra) eq_refl) as FB.
    assert (Q : (n + 1) * bpow radix2 (- (53)) <= 1000001 * bpow radix2 (- (53))) by (apply Rmult_le_compat_r; lra).
    eapply Rle_trans; [apply FB; [lra|lra|lra|lra|exact R3]|].
    assert (0 <= (n / lam)) by (apply Rmult_le_pos; [lra|left; now apply Rinv_0_lt_compat]).
    assert (0 <= (n / lam) ^ 2 * vlen x) by (apply Rmult_le_pos; [apply pow_le; lra|apply vlen_nonneg]).
    assert (0 <= (n / lam) * M) by (apply Rmult_le_pos; lra). lra.
Qed.
End F64.
