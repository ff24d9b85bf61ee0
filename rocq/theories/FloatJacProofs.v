(** * FloatJacProofs.v - rounding errors of the camera matrix and of the Jacobian (C100, C101) *)

From Coq Require Import ZArith Reals List Bool Lra Lia Psatz.
From Flocq Require Import Core BinarySingleNaN.
From Verif Require Import Scalar Linalg Bundles Extrinsics Perspective Camera Linearize Rows Spec SpecFloatErr SpecFloatMat RealBase VecLemmas ExtrinsicsProofs FloatBase FloatRound FloatErrProofs FloatApprox FloatRigidProofs FloatProjProofs.
Import ListNotations.
Local Open Scope R_scope.

(** ** Real numbers *)
Lemma dv x b X d : 0 < d -> d <= Rabs b -> Rabs x <= X -> Rabs (x / b) <= X / d.
Proof.
  intros D B L. assert (BN : b <> 0) by (intros ->; rewrite Rabs_R0 in B; lra).
  unfold Rdiv. rewrite Rabs_mult, Rabs_inv. apply Rmult_le_compat; try apply Rabs_pos; [left; apply Rinv_0_lt_compat; lra|exact L|].
  apply Rinv_le_contravar; lra.
Qed.
Lemma mu a b A B : Rabs a <= A -> Rabs b <= B -> Rabs (a * b) <= A * B.
Proof. intros. rewrite Rabs_mult. apply Rmult_le_compat; auto using Rabs_pos. Qed.
(** a quotient of perturbed numbers *)
Lemma quot_pert f b N D ef eb n : Rabs (f - N) <= ef -> Rabs (b - D) <= eb -> D <> 0 -> b <> 0 -> Rabs (N / D) <= n ->
  Rabs (f / b - N / D) <= (ef + n * eb) / Rabs b.
Proof.
  intros F B D0 B0 L.
  replace (f / b - N / D) with (((f - N) + (N / D) * (D - b)) / b) by (field; lra).
  apply dv; [now apply Rabs_pos_lt|lra|]. apply tri; [exact F|]. apply mu; [exact L|]. now rewrite Rabs_minus_sym.
Qed.

(** the entry of the Jacobian as a function of its four perturbed ingredients *)
Lemma jac_pert a b f g m2 D N m0 w P M d :
  0 < w -> 1 <= P -> 1 <= M -> 0 < d -> d <= Rabs D -> d <= 4 * M -> 40000 * w * M <= d ->
  Rabs m2 <= 1 -> Rabs m0 <= 3 * P -> Rabs (N / D) <= P ->
  Rabs (a - m2) <= 82 * w -> Rabs (b - D) <= 640 * w * M -> Rabs (f - N) <= 1970 * w * P * M -> Rabs (g - m0) <= 256 * w * P ->
  Rabs ((- a * f / (b * b) + g / b) - (- m2 * N / (D * D) + m0 / D)) <= 6860 * w * (P / d) * (M / d) /\
  0.984 * d <= Rabs b /\ Rabs b <= 1.016 * Rabs D /\ Rabs (f / b) <= 1.07 * P /\ Rabs a <= 1.05 /\ Rabs g <= 3.04 * P.
Proof.
  intros W0 P1 M1 D0 DD D4 WM A1 A2 A3 EA EB EF EG.
  assert (w01 : w <= / 10000) by nra.
  assert (WMd : w * M <= d / 40000) by lra.
  assert (B1 : 0.984 * d <= Rabs b).
  { pose proof (Rabs_triang_inv D (D - b)) as H. replace (D - (D - b)) with b in H by ring.
    rewrite Rabs_minus_sym in EB. lra. }
  assert (B2 : Rabs b <= 1.016 * Rabs D).
  { replace b with ((b - D) + D) by ring. eapply Rle_trans; [apply tri; [exact EB|apply Rle_refl]|]. nra. }
  assert (BN : b <> 0) by (intros ->; rewrite Rabs_R0 in B1; lra).
  assert (DN : D <> 0) by (intros ->; rewrite Rabs_R0 in DD; lra).
  set (i := / d). assert (I0 : 0 < i) by (now apply Rinv_0_lt_compat).
  assert (IM : 1 <= 4 * (M * i)).
  { apply Rmult_le_reg_r with d; [exact D0|]. unfold i. replace (4 * (M * / d) * d) with (4 * M) by (field; lra). lra. }
  assert (X : forall e, 0 <= e -> e / Rabs b <= 1.0163 * e * i).
  { intros e E. unfold Rdiv. replace (1.0163 * e * i) with (e * (1.0163 * i)) by ring. apply Rmult_le_compat_l; [exact E|].
    apply Rle_trans with (/ (0.984 * d)); [apply Rinv_le_contravar; lra|]. rewrite Rinv_mult. fold i. lra. }
  assert (WI : w * M * i <= / 40000).
  { apply Rmult_le_reg_r with d; [exact D0|]. unfold i. replace (w * M * / d * d) with (w * M) by (field; lra). lra. }
  assert (NU : Rabs (f / b - N / D) <= 2653 * w * P * M * i).
  { eapply Rle_trans; [apply (quot_pert _ _ _ _ _ _ _ EF EB DN BN A3)|].
    eapply Rle_trans; [apply X; apply Rplus_le_le_0_compat; repeat apply Rmult_le_pos; lra|]. assert (0 <= w * P * M * i) by (repeat apply Rmult_le_pos; lra). lra. }
  assert (NUb : Rabs (f / b) <= 1.07 * P).
  { replace (f / b) with ((f / b - N / D) + N / D) by ring. eapply Rle_trans; [apply tri; eassumption|].
    assert (2653 * w * P * M * i <= 0.067 * P) by nra. lra. }
  assert (M2 : Rabs (m2 / D) <= i).
  { eapply Rle_trans; [apply (dv _ _ 1 d); assumption|]. unfold i, Rdiv. lra. }
  assert (M0 : Rabs (m0 / D) <= 3 * P * i).
  { eapply Rle_trans; [apply (dv _ _ (3 * P) d); assumption|]. unfold i, Rdiv. lra. }
  assert (AL : Rabs (a / b - m2 / D) <= 1.0163 * (82 * w + i * (640 * w * M)) * i).
  { eapply Rle_trans; [apply (quot_pert _ _ _ _ _ _ _ EA EB DN BN M2)|]. apply X.
    apply Rplus_le_le_0_compat; [lra|]. repeat apply Rmult_le_pos; lra. }
  assert (GL : Rabs (g / b - m0 / D) <= 1.0163 * (256 * w * P + 3 * P * i * (640 * w * M)) * i).
  { eapply Rle_trans; [apply (quot_pert _ _ _ _ _ _ _ EG EB DN BN M0)|]. apply X.
    apply Rplus_le_le_0_compat; repeat apply Rmult_le_pos; lra. }
  split; [|repeat split; try assumption].
  - replace ((- a * f / (b * b) + g / b) - (- m2 * N / (D * D) + m0 / D))
      with (- ((a / b - m2 / D) * (f / b) + (m2 / D) * (f / b - N / D)) + (g / b - m0 / D)) by (field; lra).
    eapply Rle_trans.
    { apply tri; [rewrite Rabs_Ropp; apply tri; apply mu; eassumption|exact GL]. }
    unfold Rdiv. fold i.
    set (y := w * P * i). assert (Y : 0 < y) by (unfold y; repeat apply Rmult_lt_0_compat; lra).
    replace (6860 * w * (P * i) * (M * i)) with (6860 * (M * i) * y) by (unfold y; ring).
    replace (1.0163 * (82 * w + i * (640 * w * M)) * i * (1.07 * P) + i * (2653 * w * P * M * i) + 1.0163 * (256 * w * P + 3 * P * i * (640 * w * M)) * i)
      with ((1.0163 * 1.07 * (82 + 640 * (M * i)) + 2653 * (M * i) + 1.0163 * (256 + 1920 * (M * i))) * y) by (unfold y; ring).
    apply Rmult_le_compat_r; lra.
  - replace a with ((a - m2) + m2) by ring. eapply Rle_trans; [apply tri; eassumption|]. lra.
  - replace g with ((g - m0) + m0) by ring. eapply Rle_trans; [apply tri; eassumption|]. nra.
Qed.

(** sizes: [S] scale, [B] scaled depth *)
Lemma sq_ge a b : 0 <= a -> a <= b -> a * a <= b * b.
Proof. intros. apply Rmult_le_compat; lra. Qed.
Lemma sizes big S B M P d d0 : 0 < big -> 1 <= P -> 1 <= M -> 0 < d -> 0 < d0 -> 0.99 * d0 <= S -> S <= 2.2 * M ->
  0.984 * d <= B -> B <= 4.064 * M ->
  4096 * P * M * M < big -> 4096 * P * M * M < big * (d * d) -> 4096 * P * M * M < big * (d0 * d0) ->
  200 * (B * B) < big * (S * S) /\ 500 * (S * S) < big * (B * B) /\ 4 * (B * B) <= 1.07 * big * S /\ 2 * S < big * (B * B).
Proof.
  intros b0 P1 M1 D D0 S1 S2 B1 B2 G1 G2 G3.
  assert (MM : M * M <= P * M * M).
  { rewrite <- (Rmult_1_l (M * M)) at 1. rewrite Rmult_assoc. apply Rmult_le_compat_r; [|exact P1]. apply Rmult_le_pos; lra. }
  assert (M2 : M <= M * M) by (rewrite <- (Rmult_1_l M) at 1; apply Rmult_le_compat_r; lra).
  assert (BB : 0.984 * d * (0.984 * d) <= B * B) by (apply sq_ge; lra).
  assert (BB' : B * B <= 4.064 * M * (4.064 * M)) by (apply sq_ge; lra).
  assert (SS : 0.99 * d0 * (0.99 * d0) <= S * S) by (apply sq_ge; lra).
  assert (SS' : S * S <= 2.2 * M * (2.2 * M)) by (apply sq_ge; lra).
  assert (X1 : big * (0.99 * d0 * (0.99 * d0)) <= big * (S * S)) by (apply Rmult_le_compat_l; lra).
  assert (X2 : big * (0.984 * d * (0.984 * d)) <= big * (B * B)) by (apply Rmult_le_compat_l; lra).
  assert (X3 : big * (0.99 * d0) <= big * S) by (apply Rmult_le_compat_l; lra).
  assert (HH : 4096 * (P * M * M) <= big * d0).
  { destruct (Rle_dec 1 d0) as [L|L].
    - apply Rle_trans with (big * 1); [lra|]. apply Rmult_le_compat_l; lra.
    - apply Rle_trans with (big * (d0 * d0)); [lra|]. apply Rmult_le_compat_l; [lra|]. rewrite <- (Rmult_1_r d0) at 3. apply Rmult_le_compat_l; lra. }
  set (x := P * M * M) in *. set (y := big * (d * d)) in *. set (z := big * (d0 * d0)) in *. set (m := M * M) in *.
  assert (E1 : big * (0.99 * d0 * (0.99 * d0)) = 0.9801 * z) by (unfold z; lra).
  assert (E2 : big * (0.984 * d * (0.984 * d)) = 0.968256 * y) by (unfold y; lra).
  assert (E3 : 4.064 * M * (4.064 * M) = 16.516096 * m) by (unfold m; lra).
  assert (E4 : 2.2 * M * (2.2 * M) = 4.84 * m) by (unfold m; lra).
  assert (E5 : 4096 * P * M * M = 4096 * x) by (unfold x; lra).
  rewrite E1 in X1. rewrite E2 in X2. rewrite E3 in BB'. rewrite E4 in SS'. rewrite E5 in *.
  repeat split; lra.
Qed.

Lemma scale_real s x u M d0 : 0 < d0 -> Rabs (s - x) <= 250.8 * u * M -> 40000 * u * M <= d0 -> d0 <= Rabs x -> Rabs x <= 2 * M ->
  Rabs (s - x) <= 250.8 * u * M /\ 0.99 * d0 <= Rabs s /\ Rabs s <= 2.2 * M.
Proof.
  intros d1 DD W D0 X. split; [exact DD|]. split.
  - pose proof (Rabs_triang_inv x (x - s)) as H. replace (x - (x - s)) with s in H by ring.
    rewrite Rabs_minus_sym in DD. lra.
  - replace s with ((s - x) + x) by ring. eapply Rle_trans; [apply tri; eassumption|]. lra.
Qed.

Section Jac.
Variables (prec emax : Z) (Hp : Prec_gt_0 prec) (He : Prec_lt_emax prec emax).
Variables fsin fcos : binary_float prec emax -> binary_float prec emax.
Local Notation F := (binary_float prec emax).
Local Hint Extern 0 (Ops (binary_float prec emax)) =>
  exact (B_ops prec emax Hp He fsin fcos) : typeclass_instances.
(** the unit in which errors are counted *)
Variable u : R.
Local Notation big := (bpow radix2 emax).
Local Notation tiny := (bpow radix2 (2 - emax)).
Local Notation flr := (fl prec emax).
Local Instance fexp_valid : Valid_exp (SpecFloat.fexp prec emax) := fexp_correct prec emax Hp.
Local Notation app := (app prec emax u).
Hypotheses (UR : bpow radix2 (- prec) <= u) (U11 : u <= / 2048) (E17 : (17 <= emax)%Z).
Local Notation u_pos := (ud_pos prec u UR).
Local Notation tiny1 := (tiny_le_1 emax E17).
Local Notation fl0 := (fl_zero prec emax Hp He fsin fcos).
Local Notation fl1 := (fl_one prec emax Hp He fsin fcos).

Lemma tiny_big : tiny * big = 4.
Proof. rewrite <- bpow_plus. replace (2 - emax + emax)%Z with 2%Z by lia. reflexivity. Qed.
Lemma tiny_le x : 4 <= x * big -> tiny <= x.
Proof. intros H. apply Rmult_le_reg_r with big; [apply bpow_gt_0|]. rewrite tiny_big. exact H. Qed.

(** the sign flip before the normalization changes nothing, not even a sign of zero *)
Lemma div_neg_neg (x y : F) : o_div (o_neg x) (o_neg y) = o_div x y.
Proof.
  change (Bdiv mode_NE (Bopp x) (Bopp y) = Bdiv mode_NE x y).
  destruct x as [[]|[]| |sx mx ex hx], y as [[]|[]| |sy my ey hy]; try reflexivity.
  1-4: cbn [Bopp Bdiv]; destruct sy; reflexivity.
  1-4: cbn [Bopp Bdiv]; destruct sx; reflexivity.
  cbn [Bopp Bdiv]. apply B2SF_inj. rewrite !B2SF_SF2B. now destruct sx, sy.
Qed.
Lemma flip_no_effect (m : M34 F) :
  m34_div (m34_neg m) (p23 (m34_neg m)) = m34_div m (p23 m).
Proof. unfold m34_div, m34_neg, m34_map. cbn [p00 p01 p02 p03 p10 p11 p12 p13 p20 p21 p22 p23]. now rewrite !div_neg_neg. Qed.
Lemma camera_matrix_any (cam : Camera F (IntrinsicParametersPerspective F)) :
  let m := m33_mul34 (as_intrinsics_matrix (cam_intrinsics cam)) (matrix (cam_extrinsics cam)) in
  as_camera_matrix cam = m34_div m (p23 m) /\ jacobian_cache_new cam = m34_div m (p23 m).
Proof.
  assert (E : let m := m33_mul34 (as_intrinsics_matrix (cam_intrinsics cam)) (matrix (cam_extrinsics cam)) in
    as_camera_matrix cam = m34_div m (p23 m)).
  { unfold as_camera_matrix, matrix. cbv zeta. destruct (o_ltb _ _); [apply flip_no_effect|reflexivity]. }
  cbv zeta in *. split; [exact E|]. rewrite <- E. reflexivity.
Qed.
Lemma camera_matrix_eq (k : PerspectiveParams F) qh (c : V3 F) :
  as_camera_matrix (camera_new (perspective_from k) (from_rotation_and_camcenter qh c)) =
  let m := m33_mul34 (as_intrinsics_matrix (perspective_from k)) (matrix (from_rotation_and_camcenter qh c)) in
  m34_div m (p23 m).
Proof. apply (proj1 (camera_matrix_any (camera_new (perspective_from k) (from_rotation_and_camcenter qh c)))). Qed.

(** division of an approximation by a float *)
Lemma app_div x y a s W k k' : app x a W k -> flr y s -> s <> 0 -> 0 <= k <= 1000 -> k + 1 + k / 2048 <= k' ->
  4 * Rabs s <= W * big -> 4 * W < big * Rabs s -> app (o_div x y) (a / s) (W / Rabs s) k'.
Proof.
  intros (r & X & D & L) Y S K K' T B. pose proof u_pos as U0. pose proof U11 as U1.
  assert (S0 : 0 < Rabs s) by now apply Rabs_pos_lt.
  assert (W0 : 0 < W) by (pose proof (bpow_gt_0 radix2 emax); nra).
  set (i := / Rabs s). assert (I0 : 0 < i) by (now apply Rinv_0_lt_compat).
  assert (IS : i * Rabs s = 1) by (unfold i; field; lra).
  assert (KU : k * u <= k / 2048) by (unfold Rdiv; apply Rmult_le_compat_l; lra).
  assert (KU0 : 0 <= k * u) by (apply Rmult_le_pos; lra).
  assert (RL : Rabs r <= (1 + k * u) * W).
  { replace r with ((r - a) + a) by ring. eapply Rle_trans; [apply tri; eassumption|]. lra. }
  assert (WI : 0 <= W * i) by (apply Rmult_le_pos; lra).
  assert (WI' : W * i <= (1 + k * u) * (W * i)) by nra.
  assert (AB : forall z, Rabs (z / s) = Rabs z * i) by (intros z; unfold Rdiv, i; now rewrite Rabs_mult, Rabs_inv).
  destruct (div_err_u prec emax Hp He fsin fcos u UR x y r s ((1 + k * u) * (W * i)) X Y S) as (t & T1 & T2 & _).
  { apply tiny_le. apply Rle_trans with (W * i * big); [|apply Rmult_le_compat_r; [apply bpow_ge_0|exact WI']].
    apply Rmult_le_reg_r with (Rabs s); [exact S0|]. replace (W * i * big * Rabs s) with (W * big * (i * Rabs s)) by ring. rewrite IS. lra. }
  { rewrite AB. replace ((1 + k * u) * (W * i)) with ((1 + k * u) * W * i) by ring. apply Rmult_le_compat_r; lra. }
  { apply Rle_lt_trans with (4 * (W * i)).
    - assert ((1 + u) * (1 + k * u) <= 4) by nra. rewrite <- Rmult_assoc. apply Rmult_le_compat_r; [|assumption]. apply Rmult_le_pos; lra.
    - apply Rmult_lt_reg_r with (Rabs s); [exact S0|]. replace (4 * (W * i) * Rabs s) with (4 * W * (i * Rabs s)) by ring. rewrite IS. lra. }
  exists t. split; [exact T1|]. split.
  - replace (t - a / s) with ((t - r / s) + (r - a) / s) by (field; assumption).
    eapply Rle_trans; [apply tri; [exact T2|rewrite AB; apply Rmult_le_compat_r; [lra|exact D]]|].
    unfold Rdiv at 1. fold i. replace (u * ((1 + k * u) * (W * i)) + k * u * W * i) with ((k + 1 + k * u) * (u * (W * i))) by ring.
    replace (k' * u * (W * i)) with (k' * (u * (W * i))) by ring. apply Rmult_le_compat_r; [|lra].
    repeat apply Rmult_le_pos; lra.
  - rewrite AB. unfold Rdiv. fold i. apply Rmult_le_compat_r; lra.
Qed.

(** ** One entry of the Jacobian *)
Lemma jac_entry (p2 dn fu p0 : F) (rp2 rdn rfu rp0 s m2 D N m0 P M d d0 : R) :
  flr p2 rp2 -> flr dn rdn -> flr fu rfu -> flr p0 rp0 ->
  1 <= P -> 1 <= M -> 0 < d -> d <= Rabs D -> Rabs D <= 4 * M -> 40000 * u * M <= d -> 0 < d0 -> 0.99 * d0 <= Rabs s -> Rabs s <= 2.2 * M ->
  4096 * P * M * M < big -> 4096 * P * M * M < big * (d * d) -> 4096 * P * M * M < big * (d0 * d0) ->
  Rabs m2 <= 1 -> Rabs m0 <= 3 * P -> Rabs (N / D) <= P ->
  Rabs (s * rp2 - m2) <= 82 * u -> Rabs (s * rdn - D) <= 640 * u * M -> Rabs (s * rfu - N) <= 1970 * u * P * M ->
  Rabs (s * rp0 - m0) <= 256 * u * P ->
  near (7000 * u * (P / d) * (M / d)) (o_add (o_mul (o_mul (o_neg p2) (powi_m2 dn)) fu) (o_div p0 dn)) (- m2 * N / (D * D) + m0 / D).
Proof.
  intros F2 Fd Fu F0 P1 M1 d1 DD D4 WM d01 S1 S2 B1 B2 B3 A1 A2 A3 EA EB EF EG.
  pose proof u_pos as U0. pose proof U11 as U1.
  assert (D4' : d <= 4 * M) by lra.
  destruct (jac_pert _ _ _ _ _ _ _ _ u P M d U0 P1 M1 d1 DD D4' WM A1 A2 A3 EA EB EF EG) as (PE & Bl & Bh & Bf & Ba & Bg).
  assert (u01 : u <= / 10000).
  { apply Rmult_le_reg_r with M; lra. }
  assert (S0 : 0 < Rabs s) by lra.
  assert (SN : s <> 0) by (intros ->; rewrite Rabs_R0 in S0; lra).
  set (b := s * rdn) in *. set (a := s * rp2) in *. set (f := s * rfu) in *. set (g := s * rp0) in *.
  assert (bp : 0 < Rabs b) by lra.
  assert (bN : b <> 0) by (intros E; rewrite E, Rabs_R0 in bp; lra).
  assert (rE : rdn = b / s /\ rp2 = a / s /\ rfu = f / s /\ rp0 = g / s) by (unfold a, b, f, g; repeat split; field; exact SN).
  destruct rE as (dnE & p2E & fuE & p0E). clearbody a b f g. subst rdn rp2 rfu rp0.
  pose proof (bpow_gt_0 radix2 emax) as big0.
  destruct (sizes big (Rabs s) (Rabs b) M P d d0) as (Z1 & Z2 & Z3 & Z4); try assumption; [lra|].
  assert (AS : forall x, Rabs (x * x) = x * x) by (intros; apply Rabs_pos_eq, Rle_0_sqr).
  set (S := Rabs s) in *. set (B := Rabs b) in *.
  assert (SS : S * S = s * s) by (unfold S; rewrite <- Rabs_mult; apply AS).
  assert (BB : B * B = b * b) by (unfold B; rewrite <- Rabs_mult; apply AS).
  assert (SS0 : 0 < S * S) by (apply Rmult_lt_0_compat; lra).
  assert (BB0 : 0 < B * B) by (apply Rmult_lt_0_compat; lra).
  set (sq := b / s * (b / s)).
  assert (sqE : sq = B * B / (S * S)) by (rewrite SS, BB; unfold sq; field; exact SN).
  assert (sqS : sq * (S * S) = B * B) by (rewrite sqE; field; lra).
  assert (sq0 : 0 < sq) by (rewrite sqE; apply Rmult_lt_0_compat; [lra|now apply Rinv_0_lt_compat]).
  assert (sqh : 200 * sq < big) by (apply Rmult_lt_reg_r with (S * S); [exact SS0|]; rewrite Rmult_assoc, sqS; exact Z1).
  assert (sql : 500 < sq * big).
  { apply Rmult_lt_reg_r with (S * S); [exact SS0|]. replace (sq * big * (S * S)) with (sq * (S * S) * big) by ring. rewrite sqS. lra. }
  (* the square *)
  destruct (mul_err_u prec emax Hp He fsin fcos u UR dn dn _ _ sq Fd Fd) as (g1 & G1 & G2 & _).
  { apply tiny_le. lra. } { fold sq. rewrite Rabs_pos_eq; lra. } { assert (u * sq <= / 2048 * sq) by (apply Rmult_le_compat_r; lra). lra. }
  fold sq in G2. apply Rabs_le_inv in G2.
  assert (usq : u * sq <= / 2048 * sq) by (apply Rmult_le_compat_r; lra).
  assert (g1l : 0.999 * sq <= g1) by lra. assert (g1h : g1 <= 1.001 * sq) by lra. assert (g1p : 0 < g1) by lra.
  assert (ig : 0 < / g1) by now apply Rinv_0_lt_compat.
  assert (ig1 : / g1 * g1 = 1) by (field; lra).
  destruct (div_err_u prec emax Hp He fsin fcos u UR o_one (o_mul dn dn) 1 g1 (/ g1) fl1 G1) as (g2 & H1 & H2 & _).
  { lra. }
  { apply tiny_le. apply Rmult_le_reg_r with g1; [exact g1p|]. replace (/ g1 * big * g1) with (big * (/ g1 * g1)) by ring. rewrite ig1. lra. }
  { unfold Rdiv. rewrite Rmult_1_l, Rabs_pos_eq; lra. }
  { apply Rmult_lt_reg_r with g1; [exact g1p|]. rewrite Rmult_assoc, ig1.
    assert (big * (0.999 * sq) <= big * g1) by (apply Rmult_le_compat_l; lra). lra. }
  assert (TH : Rabs (g2 * sq - 1) <= 2.1 * u).
  { replace (g2 * sq - 1) with (((g2 - 1 / g1) * g1 + (sq - g1) / sq) * (sq / g1)) by (field; lra).
    assert (Q : Rabs (sq / g1) <= 1.0011).
    { rewrite Rabs_pos_eq by (apply Rmult_le_pos; lra). apply Rmult_le_reg_r with g1; [exact g1p|].
      unfold Rdiv. rewrite Rmult_assoc, ig1. lra. }
    eapply Rle_trans; [apply mu; [|exact Q]|].
    - apply tri with (x := u) (y := u).
      + rewrite Rabs_mult, (Rabs_pos_eq g1) by lra. apply Rmult_le_reg_r with (/ g1); [exact ig|].
        rewrite Rmult_assoc, (Rmult_comm g1), ig1, Rmult_1_r. exact H2.
      + eapply Rle_trans; [apply (dv _ _ (u * sq) sq); [exact sq0|rewrite Rabs_pos_eq; lra|apply Rabs_le; lra]|]. right. field. lra.
    - lra. }
  assert (g2a : Rabs g2 * sq <= 1.0011).
  { rewrite <- (Rabs_pos_eq sq) at 1 by lra. rewrite <- Rabs_mult.
    replace (g2 * sq) with ((g2 * sq - 1) + 1) by ring. eapply Rle_trans; [apply tri; [exact TH|rewrite Rabs_R1; apply Rle_refl]|]. lra. }
  (* - p2 * g2 *)
  set (Wt := 1.07 * S / (B * B)).
  assert (WtE : Wt * (B * B) = 1.07 * S) by (unfold Wt; field; lra).
  destruct (mul_err_u prec emax Hp He fsin fcos u UR (o_neg p2) (powi_m2 dn) (- (a / s)) g2 Wt) as (g3 & I1 & I2 & I3).
  { now apply fl_neg. } { exact H1. }
  { apply tiny_le. apply Rmult_le_reg_r with (B * B); [exact BB0|]. replace (Wt * big * (B * B)) with (Wt * (B * B) * big) by ring. rewrite WtE. lra. }
  { apply Rmult_le_reg_r with (B * B); [exact BB0|]. rewrite WtE, <- sqS.
    replace (Rabs (- (a / s) * g2) * (sq * (S * S))) with (Rabs a * (Rabs g2 * sq) * S).
    2: { unfold Rdiv. rewrite !Rabs_mult, Rabs_Ropp, Rabs_mult, Rabs_inv. fold S. field. lra. }
    apply Rmult_le_compat_r; [lra|]. apply Rle_trans with (1.05 * 1.0011); [|lra].
    apply Rmult_le_compat; try lra; [apply Rabs_pos|]. apply Rmult_le_pos; [apply Rabs_pos|lra]. }
  { apply Rmult_lt_reg_r with (B * B); [exact BB0|]. rewrite Rmult_assoc, WtE.
    assert (u * (1.07 * S) <= / 2048 * (1.07 * S)) by (apply Rmult_le_compat_r; lra). lra. }
  (* * fu *)
  set (i := / d). assert (i0 : 0 < i) by now apply Rinv_0_lt_compat. assert (id : i * d = 1) by (unfold i; field; lra).
  assert (iB : / B <= 1.0163 * i).
  { apply Rle_trans with (/ (0.984 * d)); [apply Rinv_le_contravar; lra|]. rewrite Rinv_mult. fold i. lra. }
  assert (FUb : Rabs (f / s) <= 1.07 * P * (B / S)).
  { replace (f / s) with (f / b * (b / s)) by (field; split; assumption). apply mu; [exact Bf|].
    unfold Rdiv. rewrite Rabs_mult, Rabs_inv. fold S B. apply Rle_refl. }
  assert (WF : Wt * (1.07 * P * (B / S)) <= 1.1636 * (P * i)).
  { replace (Wt * (1.07 * P * (B / S))) with ((1.07 * 1.07) * P * / B) by (unfold Wt; field; split; lra).
    apply Rle_trans with ((1.07 * 1.07) * P * (1.0163 * i)); [apply Rmult_le_compat_l; lra|].
    assert (0 < P * i) by (apply Rmult_lt_0_compat; lra). lra. }
  assert (Pi0 : 0 < P * i) by (apply Rmult_lt_0_compat; lra).
  assert (Wt0 : 0 <= Wt) by (unfold Wt; apply Rmult_le_pos; [lra|left; now apply Rinv_0_lt_compat]).
  assert (PiT : 4 <= P * i * big).
  { apply Rmult_le_reg_r with d; [exact d1|]. replace (P * i * big * d) with (P * big * (i * d)) by ring. rewrite id.
    assert (1 * big <= P * big) by (apply Rmult_le_compat_r; lra).
    assert (1 * M * 1 <= P * M * M) by (apply Rmult_le_compat; try lra; apply Rmult_le_compat; lra). lra. }
  assert (PiB : 1000 * (P * i) < big).
  { apply Rmult_lt_reg_r with d; [exact d1|]. replace (1000 * (P * i) * d) with (1000 * P * (i * d)) by ring. rewrite id.
    assert (P * 1 * 1 <= P * M * M) by (apply Rmult_le_compat; try lra; apply Rmult_le_compat; lra).
    destruct (Rle_dec 1 d) as [L|L].
    - assert (big * 1 <= big * d) by (apply Rmult_le_compat_l; lra). lra.
    - assert (big * (d * d) <= big * d) by (apply Rmult_le_compat_l; [lra|]; rewrite <- (Rmult_1_r d) at 3; apply Rmult_le_compat_l; lra). lra. }
  destruct (mul_err_u prec emax Hp He fsin fcos u UR (o_mul (o_neg p2) (powi_m2 dn)) fu g3 (f / s) (1.17 * (P * i)) I1 Fu) as (g4 & J1 & J2 & J3).
  { apply tiny_le. lra. }
  { eapply Rle_trans; [apply mu; [exact I3|exact FUb]|]. rewrite Rmult_assoc.
    apply Rle_trans with ((1 + u) * (1.1636 * (P * i))); [apply Rmult_le_compat_l; [lra|exact WF]|].
    assert (u * (1.1636 * (P * i)) <= / 2048 * (1.1636 * (P * i))) by (apply Rmult_le_compat_r; lra). lra. }
  { assert (u * (1.17 * (P * i)) <= / 2048 * (1.17 * (P * i))) by (apply Rmult_le_compat_r; lra). lra. }
  (* p0 / dn *)
  assert (bs : b / s <> 0) by (unfold Rdiv; apply Rmult_integral_contrapositive; split; [exact bN|now apply Rinv_neq_0_compat]).
  assert (gb : g / s / (b / s) = g / b) by (field; split; assumption).
  assert (gbl : Rabs (g / b) <= 3.1 * (P * i)).
  { eapply Rle_trans; [apply (dv _ _ (3.04 * P) (0.984 * d)); [lra|exact Bl|exact Bg]|].
    unfold Rdiv. rewrite Rinv_mult. fold i. assert (3.04 * P * (/ 0.984 * i) = 3.04 / 0.984 * (P * i)) as -> by (unfold Rdiv; ring).
    apply Rmult_le_compat_r; lra. }
  destruct (div_err_u prec emax Hp He fsin fcos u UR p0 dn _ _ (3.1 * (P * i)) F0 Fd bs) as (g5 & K1 & K2 & K3).
  { apply tiny_le. lra. } { rewrite gb. exact gbl. }
  { assert (u * (3.1 * (P * i)) <= / 2048 * (3.1 * (P * i))) by (apply Rmult_le_compat_r; lra). lra. }
  rewrite gb in K2.
  assert (uPi : u * (P * i) <= / 2048 * (P * i)) by (apply Rmult_le_compat_r; lra).
  assert (uPi0 : 0 < u * (P * i)) by (apply Rmult_lt_0_compat; lra).
  destruct (add_err_u prec emax Hp He fsin fcos u UR _ _ g4 g5 (4.3 * (P * i)) J1 K1) as (g6 & L1 & L2 & _).
  { apply tiny_le. lra. }
  { eapply Rle_trans; [apply tri; [exact J3|exact K3]|]. lra. }
  { lra. }
  destruct L1 as (L1 & L3). split; [exact L1|]. rewrite L3.
  (* total *)
  assert (T1 : Rabs (g4 - - a * f / (b * b)) <= 4.8 * (u * (P * i))).
  { replace (g4 - - a * f / (b * b)) with ((g4 - g3 * (f / s)) + ((g3 - - (a / s) * g2) * (f / s) + - ((a * (f / b) / b) * (g2 * sq - 1)))).
    2: { unfold sq. field. split; assumption. }
    assert (X1 : Rabs ((g3 - - (a / s) * g2) * (f / s)) <= 1.1636 * (u * (P * i))).
    { eapply Rle_trans; [apply mu; [exact I2|exact FUb]|]. rewrite Rmult_assoc.
      apply Rle_trans with (u * (1.1636 * (P * i))); [apply Rmult_le_compat_l; lra|lra]. }
    assert (X2 : Rabs (- ((a * (f / b) / b) * (g2 * sq - 1))) <= 2.4 * (u * (P * i))).
    { rewrite Rabs_Ropp.
      assert (Y : Rabs (a * (f / b) / b) <= 1.1419 * (P * i)).
      { eapply Rle_trans; [apply (dv _ _ (1.05 * (1.07 * P)) (0.984 * d)); [lra|exact Bl|now apply mu]|].
        unfold Rdiv. rewrite Rinv_mult. fold i. assert (1.05 * (1.07 * P) * (/ 0.984 * i) = 1.05 * 1.07 / 0.984 * (P * i)) as -> by (unfold Rdiv; ring).
        apply Rmult_le_compat_r; lra. }
      eapply Rle_trans; [apply mu; [exact Y|exact TH]|]. lra. }
    eapply Rle_trans; [apply tri; [exact J2|apply tri; [exact X1|exact X2]]|]. lra. }
  assert (Mi : 1 <= 4 * (M * i)).
  { apply Rmult_le_reg_r with d; [exact d1|]. replace (4 * (M * i) * d) with (4 * M * (i * d)) by ring. rewrite id. lra. }
  replace (g6 - (- m2 * N / (D * D) + m0 / D)) with
    (((g6 - (g4 + g5)) + ((g4 - - a * f / (b * b)) + (g5 - g / b))) + ((- a * f / (b * b) + g / b) - (- m2 * N / (D * D) + m0 / D))) by ring.
  eapply Rle_trans; [apply tri; [apply tri; [exact L2|apply tri; [exact T1|exact K2]]|exact PE]|].
  unfold Rdiv. fold i.
  replace (6860 * u * (P * i) * (M * i)) with (6860 * (M * i) * (u * (P * i))) by ring.
  replace (7000 * u * (P * i) * (M * i)) with (7000 * (M * i) * (u * (P * i))) by ring.
  set (y := u * (P * i)) in *. assert (y <= 4 * (M * i) * y) by (rewrite <- (Rmult_1_l y) at 1; apply Rmult_le_compat_r; lra).
  replace (u * (4.3 * (P * i))) with (4.3 * y) by (unfold y; ring). replace (u * (3.1 * (P * i))) with (3.1 * y) by (unfold y; ring). lra.
Qed.

Lemma app_bound x a W k : app x a W k -> Rabs a <= W.
Proof. now intros (r & _ & _ & L). Qed.

Definition hrow (a b e f : R) (x : V3 R) : R := a * vx x + b * vy x + e * vz x + f.
Lemma four_sum (a b e f x y z : F) (a' b' e' f' x' y' z' W V M k k1 k2 : R) : 1 <= M ->
  app a a' W k -> app b b' W k -> app e e' W k -> app f f' V k1 -> app x x' M 0 -> app y y' M 0 -> app z z' M 0 ->
  0 <= k <= 100 -> k + 4 <= k1 -> k1 <= 900 -> k1 + 1 + k1 / 2048 <= k2 -> 4 <= W * big -> 0 <= V -> 4 * (3 * W * M + V) < big ->
  app (o_add (o_add (o_add (o_mul a x) (o_mul b y)) (o_mul e z)) f) (a' * x' + b' * y' + e' * z' + f') (3 * W * M + V) k2.
Proof.
  intros M1 A B D H X Y Z K K1 K1' K2 T V0 BB.
  pose proof (bpow_gt_0 radix2 emax) as b0.
  assert (W0 : 0 <= W) by (apply Rnot_lt_le; intros Q; assert (W * big < 0) by nra; lra).
  assert (T1 : tiny <= W * M).
  { apply tiny_le. apply Rle_trans with (1 := T). apply Rmult_le_compat_r; [lra|]. rewrite <- (Rmult_1_r W) at 1. apply Rmult_le_compat_l; lra. }
  assert (W1 : 0 <= W * M) by (apply Rmult_le_pos; lra).
  assert (Q : forall a x a' x', app a a' W k -> app x x' M 0 -> app (o_mul a x) (a' * x') (W * M) (k + 1.1)).
  { intros. eapply app_mul; try eassumption; lra. }
  replace (3 * W * M + V) with (W * M + W * M + W * M + V) by ring.
  eapply app_add with (k := k1) (k1 := k + 3.5) (k2 := k1); [assumption..| |exact H|lra|lra|lra|lra|lra|lra].
  eapply app_add with (k := k + 2.3) (k1 := k + 2.3) (k2 := k + 1.1); [assumption..| |apply Q; eassumption|lra|lra|lra|lra|lra|lra].
  eapply app_add with (k := k + 1.1); [assumption..|apply Q; eassumption|apply Q; eassumption|lra|lra|lra|lra|lra|lra].
Qed.
Lemma unscale (r a s W k W' : R) : s <> 0 -> Rabs (r - a / s) <= k * u * (W / Rabs s) -> k * u * W <= W' -> Rabs (s * r - a) <= W'.
Proof.
  intros S D L. assert (S0 : 0 < Rabs s) by now apply Rabs_pos_lt.
  replace (s * r - a) with (s * (r - a / s)) by (field; exact S). rewrite Rabs_mult.
  apply Rle_trans with (Rabs s * (k * u * (W / Rabs s))); [apply Rmult_le_compat_l; lra|].
  replace (Rabs s * (k * u * (W / Rabs s))) with (k * u * W) by (field; lra). exact L.
Qed.


(** ** The camera matrix *)
Section Cam.
Variables (k : PerspectiveParams F) (qh : Quat F) (q : Quat R) (c : V3 F) (M P d0 : R).
Hypotheses (U : unit_quat q) (N : quat_near (8 * u) qh q) (C : vec_sized M c) (M1 : 1 <= M) (K : persp_sized P k) (P1 : 1 <= P).
Hypotheses (B1 : 4096 * P * M * M < big) (B3 : 4096 * P * M * M < big * (d0 * d0)).
Hypotheses (d01 : 0 < d0) (dz : d0 <= Rabs (vz (mv (rotm q) (vreal c)))) (Wd0 : 40000 * u * M <= d0).
Local Notation E := (from_rotation_and_camcenter qh c).
Local Notation raw := (m33_mul34 (as_intrinsics_matrix (perspective_from k)) (matrix E)).
Local Notation X := (exact_matrix k q (vreal c)).

Lemma PM1 : 1 <= P * M. Proof. nra. Qed.
Lemma PMM : P * M <= P * M * M. Proof. pose proof PM1. nra. Qed.
Lemma bigPM : 4096 * (P * M) < big. Proof. pose proof PMM. lra. Qed.
Lemma bigM : 4096 * M < big. Proof. pose proof bigPM. nra. Qed.
Lemma bigP : 4096 * P < big. Proof. pose proof bigPM. nra. Qed.

Lemma raw_apps :
  (app (p00 raw) (p00 X) (3 * P) 83.6 /\ app (p01 raw) (p01 X) (3 * P) 83.6 /\ app (p02 raw) (p02 X) (3 * P) 83.6 /\ app (p03 raw) (p03 X) (6 * P * M) 128.8) /\
  (app (p10 raw) (p10 X) (3 * P) 83.6 /\ app (p11 raw) (p11 X) (3 * P) 83.6 /\ app (p12 raw) (p12 X) (3 * P) 83.6 /\ app (p13 raw) (p13 X) (6 * P * M) 128.8) /\
  (app (p20 raw) (p20 X) 1 80.4 /\ app (p21 raw) (p21 X) 1 80.4 /\ app (p22 raw) (p22 X) 1 80.4 /\ app (p23 raw) (p23 X) (2 * M) 125.4).
Proof.
  pose proof u_pos as U0. pose proof tiny1 as T1. pose proof PM1. pose proof bigPM. pose proof bigM. pose proof bigP.
  destruct (rotmat_apps prec emax Hp He fsin fcos u UR U11 E17 qh q U N) as ((L0 & L1 & L2) & (L3 & L4 & L5) & (L6 & L7 & L8)).
  destruct (trans_near prec emax Hp He fsin fcos u UR U11 E17 qh q U N c M C M1) as (TX & TY & TZ); [lra|].
  assert (TL : vle (2 * M) (vopp (mv (rotm q) (vreal c)))).
  { apply vle_vopp, orth_vle; [now apply rotm_orthogonal|]. now apply vec_sized_vle. }
  destruct TL as (TL1 & TL2 & TL3).
  change (v3_neg (m33_mulv (q_to_rotation_matrix qh) c)) with (translation E) in *.
  assert (AX : app (vx (translation E)) (vx (vopp (mv (rotm q) (vreal c)))) (2 * M) 125.4) by (eapply near_app; [exact TX|nra|exact TL1]).
  assert (AY : app (vy (translation E)) (vy (vopp (mv (rotm q) (vreal c)))) (2 * M) 125.4) by (eapply near_app; [exact TY|nra|exact TL2]).
  assert (AZ : app (vz (translation E)) (vz (vopp (mv (rotm q) (vreal c)))) (2 * M) 125.4) by (eapply near_app; [exact TZ|nra|exact TL3]).
  destruct K as (KFX & KFY & KS & KCX & KCY). apply (sized_app prec emax u) in KFX, KFY, KS, KCX, KCY.
  assert (KZ : app o_zero 0 P 0) by (apply app_exact; [apply fl0|rewrite Rabs_R0; lra]).
  assert (G : forall a b e x y z a' b' e' x' y' z', app a a' P 0 -> app b b' P 0 -> app e e' P 0 ->
    app x x' 1 80.4 -> app y y' 1 80.4 -> app z z' 1 80.4 ->
    app (o_add (o_add (o_mul a x) (o_mul b y)) (o_mul e z)) (a' * x' + b' * y' + e' * z') (3 * P) 83.6).
  { intros a b e x y z a' b' e' x' y' z' A B D XX Y Z.
    assert (Q : forall a x a' x', app a a' P 0 -> app x x' 1 80.4 -> app (o_mul a x) (a' * x') (P * 1) 81.45).
    { intros. eapply app_mul; try eassumption; lra. }
    replace (3 * P) with (P * 1 + P * 1 + P * 1) by ring.
    eapply app_add with (k := 82.5) (k2 := 81.45); [assumption..|eapply app_add with (k := 81.45) (k' := 82.5); [assumption..|apply Q; eassumption|apply Q; eassumption|lra|lra|lra|lra|lra|lra]|apply Q; eassumption|lra|lra|lra|lra|lra|lra]. }
  assert (GT : forall a b e x y z a' b' e' x' y' z', app a a' P 0 -> app b b' P 0 -> app e e' P 0 ->
    app x x' (2 * M) 125.4 -> app y y' (2 * M) 125.4 -> app z z' (2 * M) 125.4 ->
    app (o_add (o_add (o_mul a x) (o_mul b y)) (o_mul e z)) (a' * x' + b' * y' + e' * z') (6 * P * M) 128.8).
  { intros a b e x y z a' b' e' x' y' z' A B D XX Y Z.
    assert (Q : forall a x a' x', app a a' P 0 -> app x x' (2 * M) 125.4 -> app (o_mul a x) (a' * x') (P * (2 * M)) 126.47).
    { intros. eapply app_mul; try eassumption; lra. }
    replace (6 * P * M) with (P * (2 * M) + P * (2 * M) + P * (2 * M)) by ring.
    eapply app_add with (k := 127.6) (k2 := 126.47); [assumption..|eapply app_add with (k := 126.47) (k' := 127.6); [assumption..|apply Q; eassumption|apply Q; eassumption|lra|lra|lra|lra|lra|lra]|apply Q; eassumption|lra|lra|lra|lra|lra|lra]. }
  assert (G1 : forall x y z z' W kk x' y', app x x' 1 80.4 \/ app x x' (2 * M) 125.4 -> app y y' 1 80.4 \/ app y y' (2 * M) 125.4 -> app z z' W kk ->
    app (o_add (o_add (o_mul o_zero x) (o_mul o_zero y)) (o_mul o_one z)) (0 * x' + 0 * y' + 1 * z') W kk).
  { intros x y z z' W kk x' y' XX YY (r & Z & D).
    assert (FX : is_finite x = true) by (destruct XX as [(? & (? & _) & _)|(? & (? & _) & _)]; assumption).
    assert (FY : is_finite y = true) by (destruct YY as [(? & (? & _) & _)|(? & (? & _) & _)]; assumption).
    apply (app_eq prec emax u _ z'); [|ring]. exists r. split; [|exact D].
    apply add_0_l; [apply add_0_l; now apply zero_mul|]. now apply mul_1_l. }
  unfold as_intrinsics_matrix, perspective_from, m34_view33, m33_mul34, matrix, exact_matrix, kreal, kmat, hstack, mm, mv.
  cbn [p00 p01 p02 p03 p10 p11 p12 p13 p20 p21 p22 p23 m00 m01 m02 m10 m11 m12 m20 m21 m22 ip_cache_p vx vy vz].
  repeat split.
  all: first [apply G; assumption|apply GT; assumption|apply G1; auto].
Qed.
Local Notation s := (B2R (p23 raw)).
Local Notation PM := (as_camera_matrix (camera_new (perspective_from k) E)).
Lemma tz_le : Rabs (p23 X) <= 2 * M /\ d0 <= Rabs (p23 X).
Proof.
  assert (EQ : p23 X = - vz (mv (rotm q) (vreal c))).
  { unfold exact_matrix. destruct (mv (rotm q) (vreal c)) as [a b e]. unfold hstack, mv, kreal, kmat, vopp. cbn [p23 vx vy vz m00 m01 m02 m10 m11 m12 m20 m21 m22]. ring. }
  rewrite EQ, Rabs_Ropp. split; [|exact dz].
  apply (orth_vle (rotm q) (vreal c) M); [now apply rotm_orthogonal|]. now apply vec_sized_vle.
Qed.
Lemma scale_facts : flr (p23 raw) s /\ Rabs (s - p23 X) <= 250.8 * u * M /\ 0.99 * d0 <= Rabs s /\ Rabs s <= 2.2 * M.
Proof.
  destruct raw_apps as (_ & _ & _ & _ & _ & (r & R & D & L)). destruct tz_le as (T1 & T2).
  destruct R as (R1 & R2). split; [split; [exact R1|reflexivity]|]. rewrite R2. clear R1 R2. revert D T1 T2. generalize (p23 X). clear L. intros x D T1 T2.
  apply (scale_real r x u M d0); lra.
Qed.
Lemma bigd0 : 4096 * (P * M) < big * d0.
Proof.
  pose proof PM1. pose proof PMM. pose proof (bpow_gt_0 radix2 emax). destruct (Rle_dec 1 d0) as [L|L].
  - apply Rlt_le_trans with (big * 1); [lra|]. apply Rmult_le_compat_l; lra.
  - apply Rlt_le_trans with (big * (d0 * d0)); [lra|]. apply Rmult_le_compat_l; [lra|]. rewrite <- (Rmult_1_r d0) at 3. apply Rmult_le_compat_l; lra.
Qed.
Lemma norm_apps :
  (app (p00 PM) (p00 X / s) (3 * P / Rabs s) 84.65 /\ app (p01 PM) (p01 X / s) (3 * P / Rabs s) 84.65 /\
   app (p02 PM) (p02 X / s) (3 * P / Rabs s) 84.65 /\ app (p03 PM) (p03 X / s) (6 * P * M / Rabs s) 129.9) /\
  (app (p10 PM) (p10 X / s) (3 * P / Rabs s) 84.65 /\ app (p11 PM) (p11 X / s) (3 * P / Rabs s) 84.65 /\
   app (p12 PM) (p12 X / s) (3 * P / Rabs s) 84.65 /\ app (p13 PM) (p13 X / s) (6 * P * M / Rabs s) 129.9) /\
  (app (p20 PM) (p20 X / s) (1 / Rabs s) 81.5 /\ app (p21 PM) (p21 X / s) (1 / Rabs s) 81.5 /\
   app (p22 PM) (p22 X / s) (1 / Rabs s) 81.5 /\ app (p23 PM) (p23 X / s) (2 * M / Rabs s) 126.5).
Proof.
  rewrite camera_matrix_eq. cbv zeta. unfold m34_div at 1 2 3 4 5 6 7 8 9 10 11 12. unfold m34_map.
  cbn [p00 p01 p02 p03 p10 p11 p12 p13 p20 p21 p22 p23].
  pose proof raw_apps as RA. pose proof scale_facts as (F1 & _ & F2 & F3). revert RA F1 F2 F3.
  pose proof bigd0 as H. pose proof PM1 as H0. pose proof bigM as H1. pose proof (bpow_gt_0 radix2 emax) as b0.
  generalize raw. generalize X. intros x m ((A0 & A1 & A2 & A3) & (A4 & A5 & A6 & A7) & (A8 & A9 & A10 & A11)) F1 F2 F3.
  generalize dependent (B2R (p23 m)). intros s F1 F2 F3.
  assert (SN : s <> 0) by (intros H2; rewrite H2, Rabs_R0 in F2; lra).
  assert (bs : big * (0.99 * d0) <= big * Rabs s) by (apply Rmult_le_compat_l; lra).
  assert (PP : P <= P * M) by (rewrite <- (Rmult_1_r P) at 1; apply Rmult_le_compat_l; lra).
  assert (MMM : M <= P * M) by (rewrite <- (Rmult_1_l M) at 1; apply Rmult_le_compat_r; lra).
  assert (Z : forall W, 1 <= W <= 6 * P * M -> 4 * Rabs s <= W * big /\ 4 * W < big * Rabs s).
  { intros W (W1 & W2). assert (1 * big <= W * big) by (apply Rmult_le_compat_r; lra). split; lra. }
  destruct (Z (3 * P)) as (Z1 & Z2); [lra|]. destruct (Z (6 * P * M)) as (Z3 & Z4); [lra|].
  destruct (Z 1) as (Z5 & Z6); [lra|]. destruct (Z (2 * M)) as (Z7 & Z8); [lra|].
  assert (L1 : forall y a, app y a (3 * P) 83.6 -> app (o_div y (p23 m)) (a / s) (3 * P / Rabs s) 84.65).
  { intros. eapply app_div; try eassumption; lra. }
  assert (L2 : forall y a, app y a (6 * P * M) 128.8 -> app (o_div y (p23 m)) (a / s) (6 * P * M / Rabs s) 129.9).
  { intros. eapply app_div; try eassumption; lra. }
  assert (L3 : forall y a, app y a 1 80.4 -> app (o_div y (p23 m)) (a / s) (1 / Rabs s) 81.5).
  { intros. eapply app_div; try eassumption; lra. }
  assert (L4 : forall y a, app y a (2 * M) 125.4 -> app (o_div y (p23 m)) (a / s) (2 * M / Rabs s) 126.5).
  { intros. eapply app_div; try eassumption; lra. }
  split; [|split]; (split; [|split; [|split]]); auto.
Qed.

(** ** The Jacobian *)
Section At.
Variables (x : V3 F) (d : R).
Hypotheses (XM : vec_sized M x) (d1 : 0 < d) (Wd : 40000 * u * M <= d) (B2 : 4096 * P * M * M < big * (d * d)).
Local Notation D := (hrow (p20 X) (p21 X) (p22 X) (p23 X) (vreal x)).
Local Notation Nu := (hrow (p00 X) (p01 X) (p02 X) (p03 X) (vreal x)).
Local Notation Nv := (hrow (p10 X) (p11 X) (p12 X) (p13 X) (vreal x)).
Hypotheses (DD : d <= Rabs D) (D4 : Rabs D <= 4 * M) (QU : Rabs (Nu / D) <= P) (QV : Rabs (Nv / D) <= P).
Local Notation e := (7000 * u * (P / d) * (M / d)).
Lemma jac_near : let J := linearize_at PM x in
  (near e (j00 J) (- p20 X * Nu / (D * D) + p00 X / D) /\
   near e (j01 J) (- p21 X * Nu / (D * D) + p01 X / D) /\
   near e (j02 J) (- p22 X * Nu / (D * D) + p02 X / D)) /\
  (near e (j10 J) (- p20 X * Nv / (D * D) + p10 X / D) /\
   near e (j11 J) (- p21 X * Nv / (D * D) + p11 X / D) /\
   near e (j12 J) (- p22 X * Nv / (D * D) + p12 X / D)).
Proof.
  pose proof raw_apps as RA.
  assert (SZ : (Rabs (p00 X) <= 3 * P /\ Rabs (p01 X) <= 3 * P /\ Rabs (p02 X) <= 3 * P) /\
               (Rabs (p10 X) <= 3 * P /\ Rabs (p11 X) <= 3 * P /\ Rabs (p12 X) <= 3 * P) /\
               (Rabs (p20 X) <= 1 /\ Rabs (p21 X) <= 1 /\ Rabs (p22 X) <= 1)).
  { destruct RA as ((A0 & A1 & A2 & A3) & (A4 & A5 & A6 & A7) & (A8 & A9 & A10 & A11)).
    split; [|split]; (split; [|split]); eapply app_bound; eassumption. }
  clear RA. pose proof norm_apps as RA. pose proof scale_facts as (F1 & _ & F2 & F3). revert DD D4 QU QV SZ RA F1 F2 F3.
  pose proof bigd0 as H. pose proof PM1 as H0. pose proof bigM as H1. pose proof (bpow_gt_0 radix2 emax) as b0.
  generalize PM. generalize (B2R (p23 raw)). generalize X.
  intros X s m DD D4 QU QV ((S0 & S1 & S2) & (S3 & S4 & S5) & (S6 & S7 & S8)) ((A0 & A1 & A2 & A3) & (A4 & A5 & A6 & A7) & (A8 & A9 & A10 & A11)) _ F2 F3.
  assert (SN : s <> 0) by (intros E; rewrite E, Rabs_R0 in F2; lra).
  assert (Sp : 0 < Rabs s) by lra.
  destruct XM as (X1 & X2 & X3). apply (sized_app prec emax u) in X1, X2, X3.
  set (i := / Rabs s) in *. assert (i0 : 0 < i) by now apply Rinv_0_lt_compat. assert (iS : i * Rabs s = 1) by (unfold i; field; lra).
  assert (bs : big * (0.99 * d0) <= big * Rabs s) by (apply Rmult_le_compat_l; lra).
  assert (T : 4 <= 1 / Rabs s * big).
  { apply Rmult_le_reg_r with (Rabs s); [exact Sp|]. unfold Rdiv. fold i. replace (1 * i * big * Rabs s) with (big * (i * Rabs s)) by ring. rewrite iS. lra. }
  assert (HB : 1000 * (P * M * i) < big).
  { apply Rmult_lt_reg_r with (Rabs s); [exact Sp|]. replace (1000 * (P * M * i) * Rabs s) with (1000 * (P * M) * (i * Rabs s)) by ring. rewrite iS. lra. }
  assert (Mi : M * i <= P * M * i) by (apply Rmult_le_compat_r; [lra|]; rewrite <- (Rmult_1_l M) at 1; apply Rmult_le_compat_r; lra).
  assert (TP : 4 <= 3 * P / Rabs s * big).
  { apply Rle_trans with (1 := T). apply Rmult_le_compat_r; [lra|]. unfold Rdiv. apply Rmult_le_compat_r; fold i; lra. }
  assert (PMi0 : 0 < P * M * i) by (apply Rmult_lt_0_compat; lra). assert (Mi0 : 0 < M * i) by (apply Rmult_lt_0_compat; lra).
  assert (DN : app (o_add (o_add (o_add (o_mul (p20 m) (vx x)) (o_mul (p21 m) (vy x))) (o_mul (p22 m) (vz x))) (p23 m))
                (p20 X / s * B2R (vx x) + p21 X / s * B2R (vy x) + p22 X / s * B2R (vz x) + p23 X / s) (3 * (1 / Rabs s) * M + 2 * M / Rabs s) 127.6).
  { eapply four_sum; try eassumption; try lra; unfold Rdiv; fold i; lra. }
  assert (FU : app (o_add (o_add (o_add (o_mul (p00 m) (vx x)) (o_mul (p01 m) (vy x))) (o_mul (p02 m) (vz x))) (p03 m))
                (p00 X / s * B2R (vx x) + p01 X / s * B2R (vy x) + p02 X / s * B2R (vz x) + p03 X / s) (3 * (3 * P / Rabs s) * M + 6 * P * M / Rabs s) 131).
  { eapply four_sum; try eassumption; try lra; unfold Rdiv; fold i; lra. }
  assert (FV : app (o_add (o_add (o_add (o_mul (p10 m) (vx x)) (o_mul (p11 m) (vy x))) (o_mul (p12 m) (vz x))) (p13 m))
                (p10 X / s * B2R (vx x) + p11 X / s * B2R (vy x) + p12 X / s * B2R (vz x) + p13 X / s) (3 * (3 * P / Rabs s) * M + 6 * P * M / Rabs s) 131).
  { eapply four_sum; try eassumption; try lra; unfold Rdiv; fold i; lra. }
  revert DD D4 QU QV. unfold linearize_at. cbv zeta. cbn [j00 j01 j02 j10 j11 j12].
  set (dn := o_add (o_add (o_add (o_mul (p20 m) (vx x)) (o_mul (p21 m) (vy x))) (o_mul (p22 m) (vz x))) (p23 m)) in *.
  set (fu := o_add (o_add (o_add (o_mul (p00 m) (vx x)) (o_mul (p01 m) (vy x))) (o_mul (p02 m) (vz x))) (p03 m)) in *.
  set (fv := o_add (o_add (o_add (o_mul (p10 m) (vx x)) (o_mul (p11 m) (vy x))) (o_mul (p12 m) (vz x))) (p13 m)) in *.
  clearbody dn fu fv.
  assert (EQ : forall a b e f, a / s * B2R (vx x) + b / s * B2R (vy x) + e / s * B2R (vz x) + f / s = hrow a b e f (vreal x) / s).
  { intros. unfold hrow, vreal. cbn [vx vy vz]. field. exact SN. }
  rewrite EQ in DN, FU, FV.
  generalize dependent (hrow (p20 X) (p21 X) (p22 X) (p23 X) (vreal x)). intros D DN.
  generalize dependent (hrow (p00 X) (p01 X) (p02 X) (p03 X) (vreal x)). intros Nu FU.
  generalize dependent (hrow (p10 X) (p11 X) (p12 X) (p13 X) (vreal x)). intros Nv FV.
  intros DD D4 QU QV.
  pose proof u_pos as U0. assert (uM : 0 < u * M) by (apply Rmult_lt_0_compat; lra).
  assert (uPM : 0 < u * (P * M)) by (apply Rmult_lt_0_compat; lra). assert (uP : 0 < u * P) by (apply Rmult_lt_0_compat; lra).
  destruct DN as (rd & DN1 & DN2 & _). replace (3 * (1 / Rabs s) * M + 2 * M / Rabs s) with (5 * M / Rabs s) in DN2 by (field; lra).
  assert (DE : Rabs (s * rd - D) <= 640 * u * M) by (eapply unscale; [exact SN|exact DN2|lra]).
  assert (NE : forall f N, app f (N / s) (3 * (3 * P / Rabs s) * M + 6 * P * M / Rabs s) 131 ->
    exists r, flr f r /\ Rabs (s * r - N) <= 1970 * u * P * M).
  { intros f N0 (r & G1 & G2 & _). exists r. split; [exact G1|].
    replace (3 * (3 * P / Rabs s) * M + 6 * P * M / Rabs s) with (15 * P * M / Rabs s) in G2 by (field; lra).
    eapply unscale; [exact SN|exact G2|lra]. }
  destruct (NE _ _ FU) as (ru & U1' & U2). destruct (NE _ _ FV) as (rv & V1 & V2).
  assert (GO : forall p2 p0 m2 m0 f rf N0, app p2 (m2 / s) (1 / Rabs s) 81.5 -> app p0 (m0 / s) (3 * P / Rabs s) 84.65 ->
    Rabs m2 <= 1 -> Rabs m0 <= 3 * P -> flr f rf -> Rabs (s * rf - N0) <= 1970 * u * P * M -> Rabs (N0 / D) <= P ->
    near (7000 * u * (P / d) * (M / d)) (o_add (o_mul (o_mul (o_neg p2) (powi_m2 dn)) f) (o_div p0 dn)) (- m2 * N0 / (D * D) + m0 / D)).
  { intros p2 p0 m2 m0 f rf N0 (r2 & R2 & E2 & _) (r0 & R0 & E0 & _) L2 L0 FF EF QQ.
    apply (jac_entry p2 dn f p0 r2 rd rf r0 s m2 D N0 m0 P M d d0); try assumption.
    - eapply unscale; [exact SN|exact E2|lra].
    - eapply unscale; [exact SN|exact E0|lra]. }
  split; (split; [|split]); eapply GO; eassumption.
Qed.
End At.
End Cam.
End Jac.
