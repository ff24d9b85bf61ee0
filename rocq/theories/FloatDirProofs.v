(** * FloatDirProofs.v - lengths and points at a distance in IEEE arithmetic (C89, C90) *)

From Coq Require Import ZArith Reals List Bool Lra Lia Psatz.
From Flocq Require Import Core BinarySingleNaN.
From Verif Require Import Scalar Linalg Bundles Rows Spec SpecFloatErr RealBase VecLemmas FloatBase FloatRound FloatErrProofs FloatApprox.
Import ListNotations.

Section Dir.
Variables (prec emax : Z) (Hp : Prec_gt_0 prec) (He : Prec_lt_emax prec emax).
Variables fsin fcos : binary_float prec emax -> binary_float prec emax.
Local Notation F := (binary_float prec emax).
Local Hint Extern 0 (Ops (binary_float prec emax)) =>
  exact (B_ops prec emax Hp He fsin fcos) : typeclass_instances.
Local Open Scope R_scope.
Local Notation u := (bpow radix2 (- prec)).
Local Notation big := (bpow radix2 emax).
Local Notation tiny := (bpow radix2 (2 - emax)).
Local Notation flr := (fl prec emax).
Local Notation rnd := (rnd prec emax).
Local Notation app := (app prec emax (bpow radix2 (- prec))).
Local Instance fexp_valid : Valid_exp (SpecFloat.fexp prec emax) := fexp_correct prec emax Hp.

Lemma fl_sqrt x a : flr x a -> 0 < a -> flr (o_sqrt x) (rnd (sqrt a)).
Proof.
  intros [A <-] P. pose proof (Bsqrt_correct prec emax Hp He mode_NE x) as (B & C & _).
  split; [|exact B]. change (is_finite (Bsqrt mode_NE x) = true). rewrite C.
  destruct x as [s|s| |s m e b]; try discriminate; [reflexivity|].
  destruct s; [|reflexivity]. exfalso. cbn [B2R] in P. pose proof (F2R_lt_0 radix2 (Float radix2 (Z.neg m) e) (Pos2Z.neg_is_neg m)). 
  change (cond_Zopp true (Z.pos m)) with (Z.neg m) in P. lra.
Qed.

Hypotheses (P11 : (11 <= prec)%Z).
Variable E : Z.
Hypotheses (E0 : (0 <= E)%Z) (E2 : (2 * E + 4 <= emax)%Z).
Let U0 := u_pos' prec.
Let U1 := u11 prec P11.

Lemma sqrt_rel a L d : 0 < L -> 0 <= d <= 1 / 100 -> Rabs (a - L * L) <= d * (L * L) ->
  Rabs (sqrt a - L) <= 0.51 * d * L.
Proof.
  intros L0 D H. assert (LL : 0 < L * L) by nra.
  assert (A : (1 - d) * (L * L) <= a <= (1 + d) * (L * L)) by (apply Rabs_le_inv in H; lra).
  apply Rabs_le. split.
  - assert (K : L * (1 - 0.51 * d) <= sqrt a); [|lra].
    rewrite <- (sqrt_Rsqr (L * (1 - 0.51 * d))) by nra. apply sqrt_le_1_alt. unfold Rsqr.
    apply Rle_trans with ((1 - d) * (L * L)); [|lra].
    replace (L * (1 - 0.51 * d) * (L * (1 - 0.51 * d))) with ((1 - 0.51 * d) * (1 - 0.51 * d) * (L * L)) by ring.
    apply Rmult_le_compat_r; [lra|]. nra.
  - assert (K : sqrt a <= L * (1 + 0.51 * d)); [|lra].
    rewrite <- (sqrt_Rsqr (L * (1 + 0.51 * d))) by nra. apply sqrt_le_1_alt. unfold Rsqr.
    apply Rle_trans with ((1 + d) * (L * L)); [lra|].
    replace (L * (1 + 0.51 * d) * (L * (1 + 0.51 * d))) with ((1 + 0.51 * d) * (1 + 0.51 * d) * (L * L)) by ring.
    apply Rmult_le_compat_r; [lra|]. nra.
Qed.

(** the length of a vector *)
Lemma norm_err (d : V3 F) L : flr (vx d) (B2R (vx d)) -> flr (vy d) (B2R (vy d)) -> flr (vz d) (B2R (vz d)) ->
  L = vlen (vreal d) -> bpow radix2 (- E) <= L <= bpow radix2 E ->
  exists m, flr (v3_norm d) m /\ Rabs (m - L) <= 4 * u * L.
Proof.
  intros FX FY FZ EL LL. pose proof U0 as u0. pose proof U1 as u1.
  set (a := B2R (vx d)) in *. set (b := B2R (vy d)) in *. set (c := B2R (vz d)) in *.
  assert (S : L * L = a * a + b * b + c * c).
  { rewrite EL, vlen_sq. unfold vreal, vdot. cbn. fold a b c. ring. }
  assert (L0 : 0 < L) by (pose proof (bpow_gt_0 radix2 (- E)); lra).
  set (W := L * L) in *. assert (W0 : 0 < W) by (unfold W; nra).
  assert (T : tiny <= W).
  { apply Rle_trans with (bpow radix2 (- E + - E)); [apply bpow_le; lia|]. rewrite bpow_plus. unfold W.
    pose proof (bpow_gt_0 radix2 (- E)). apply Rmult_le_compat; lra. }
  assert (B : 16 * W <= big).
  { apply Rle_trans with (bpow radix2 (4 + (E + E))); [|apply bpow_le; lia]. rewrite !bpow_plus. simpl (bpow radix2 4). unfold W.
    assert (L * L <= bpow radix2 E * bpow radix2 E) by (apply Rmult_le_compat; lra). lra. }
  assert (Q : forall x, Rabs (x * x) <= W <-> x * x <= W) by (intros x; rewrite Rabs_pos_eq by nra; tauto).
  destruct (mul_err prec emax Hp He fsin fcos _ _ _ _ W FX FX T) as (x2 & X2 & DX & _); [apply Q; nra|nra|].
  destruct (mul_err prec emax Hp He fsin fcos _ _ _ _ W FY FY T) as (y2 & Y2 & DY & _); [apply Q; nra|nra|].
  destruct (mul_err prec emax Hp He fsin fcos _ _ _ _ W FZ FZ T) as (z2 & Z2 & DZ & _); [apply Q; nra|nra|].
  apply Rabs_le_inv in DX, DY, DZ.
  assert (uW : 0 <= u * W <= W / 2048) by nra.
  destruct (add_err prec emax Hp He fsin fcos _ _ _ _ (1.001 * W) X2 Y2) as (s1 & S1 & D1 & _);
    [lra|apply Rabs_le; nra|nra|].
  apply Rabs_le_inv in D1.
  destruct (add_err prec emax Hp He fsin fcos _ _ _ _ (1.003 * W) S1 Z2) as (s2 & S2 & D2 & _);
    [lra|apply Rabs_le; nra|nra|].
  apply Rabs_le_inv in D2.
  assert (DS : Rabs (s2 - W) <= (5.01 * u) * W) by (apply Rabs_le; nra).
  assert (SP : 0 < s2) by (apply Rabs_le_inv in DS; nra).
  pose proof (fl_sqrt _ _ S2 SP) as R. exists (rnd (sqrt s2)). split; [exact R|].
  pose proof (sqrt_rel s2 L (5.01 * u) L0) as Q1. specialize (Q1 ltac:(lra) DS).
  assert (TL : tiny <= 1.01 * L).
  { apply Rle_trans with (bpow radix2 (- E)); [apply bpow_le; lia|lra]. }
  destruct (rnd_near prec emax Hp (sqrt s2) (1.01 * L) TL) as (Q2 & _).
  { apply Rabs_le_inv in Q1. apply Rabs_le. nra. }
  replace (rnd (sqrt s2) - L) with ((rnd (sqrt s2) - sqrt s2) + (sqrt s2 - L)) by ring.
  eapply Rle_trans; [apply tri; [exact Q2|exact Q1]|]. nra.
Qed.

(** a number divided by the length *)
Lemma div_norm_app (d : V3 F) L M dist D : flr (vx d) (B2R (vx d)) -> flr (vy d) (B2R (vy d)) -> flr (vz d) (B2R (vz d)) ->
  L = vlen (vreal d) -> bpow radix2 (- E) <= L <= bpow radix2 E ->
  flr dist D -> Rabs D <= M -> tiny <= M / L -> 16 * (M / L) <= big ->
  app (o_div dist (v3_norm d)) (D / L) (M / L) 5.02.
Proof.
  intros FX FY FZ EL LL FD DM TW BW. pose proof U0 as u0. pose proof U1 as u1.
  destruct (norm_err d L FX FY FZ EL LL) as (m & Fm & Dm).
  assert (L0 : 0 < L) by (pose proof (bpow_gt_0 radix2 (- E)); lra).
  apply Rabs_le_inv in Dm. assert (M0 : (1 - 4 * u) * L <= m <= (1 + 4 * u) * L) by lra.
  assert (Pm : 0 < m) by nra.
  assert (IL : 0 < / L) by now apply Rinv_0_lt_compat.
  assert (Im : / m <= (1 + 4.01 * u) * / L).
  { apply Rmult_le_reg_r with (m * L); [nra|]. replace (/ m * (m * L)) with L by (field; lra).
    replace ((1 + 4.01 * u) * / L * (m * L)) with ((1 + 4.01 * u) * m) by (field; lra).
    apply Rle_trans with ((1 + 4.01 * u) * ((1 - 4 * u) * L)); [|apply Rmult_le_compat_l; lra]. nra. }
  assert (Im0 : 0 < / m) by now apply Rinv_0_lt_compat.
  assert (DIm : Rabs (/ m - / L) <= 4.01 * u * / L).
  { apply Rabs_le. split; [|lra]. assert (K : (1 - 4.01 * u) * / L <= / m); [|lra].
    apply Rmult_le_reg_r with (m * L); [nra|]. replace (/ m * (m * L)) with L by (field; lra).
    replace ((1 - 4.01 * u) * / L * (m * L)) with ((1 - 4.01 * u) * m) by (field; lra).
    apply Rle_trans with ((1 - 4.01 * u) * ((1 + 4 * u) * L)); [apply Rmult_le_compat_l; lra|]. nra. }
  set (W := M / L) in *. assert (W0 : 0 < W) by (pose proof (bpow_gt_0 radix2 (2 - emax)); lra).
  assert (AW : Rabs (D / m) <= 1.002 * W).
  { unfold Rdiv. rewrite Rabs_mult, (Rabs_pos_eq (/ m)) by lra.
    apply Rle_trans with (M * ((1 + 4.01 * u) * / L)); [apply Rmult_le_compat; try lra; apply Rabs_pos|].
    replace (M * ((1 + 4.01 * u) * / L)) with ((1 + 4.01 * u) * W) by (unfold W; field; lra).
    apply Rmult_le_compat_r; lra. }
  destruct (div_err prec emax Hp He fsin fcos _ _ _ _ (1.002 * W) FD Fm ltac:(lra) ltac:(lra) AW ltac:(nra)) as (r & Fr & Dr & _).
  exists r. split; [exact Fr|]. split.
  - replace (r - D / L) with ((r - D / m) + D * (/ m - / L)) by (unfold Rdiv; ring).
    eapply Rle_trans; [apply tri; [exact Dr|]|].
    + rewrite Rabs_mult. apply Rmult_le_compat; [apply Rabs_pos|apply Rabs_pos|exact DM|exact DIm].
    + replace (M * (4.01 * u * / L)) with (4.01 * u * W) by (unfold W; field; lra).
      assert (0 < u * W) by nra. lra.
  - unfold Rdiv, W. rewrite Rabs_mult, (Rabs_pos_eq (/ L)) by lra. apply Rmult_le_compat_r; lra.
Qed.


Lemma scale_app (d : V3 F) L M dist D : flr (vx d) (B2R (vx d)) -> flr (vy d) (B2R (vy d)) -> flr (vz d) (B2R (vz d)) ->
  L = vlen (vreal d) -> bpow radix2 (- E) <= L <= bpow radix2 E ->
  flr dist D -> Rabs D <= M -> 1 <= M <= bpow radix2 E ->
  app (o_div dist (v3_norm d)) (D / L) (M / L) 5.02.
Proof.
  intros FX FY FZ EL LL FD DM MM. assert (L0 : 0 < L) by (pose proof (bpow_gt_0 radix2 (- E)); lra).
  assert (IL : 0 < / L) by now apply Rinv_0_lt_compat.
  apply div_norm_app; try assumption.
  - apply Rle_trans with (1 * bpow radix2 (- E)); [rewrite Rmult_1_l; apply bpow_le; lia|]. unfold Rdiv.
    apply Rmult_le_compat; try lra; [apply bpow_ge_0|]. rewrite bpow_opp. apply Rinv_le_contravar; lra.
  - apply Rle_trans with (bpow radix2 (4 + (E + E))); [|apply bpow_le; lia]. rewrite !bpow_plus. simpl (bpow radix2 4). unfold Rdiv.
    assert (M * / L <= bpow radix2 E * bpow radix2 E).
    { apply Rmult_le_compat; try lra. rewrite <- (Rinv_inv (bpow radix2 E)), <- bpow_opp. apply Rinv_le_contravar; [apply bpow_gt_0|lra]. }
    lra.
Qed.
(** the normalized vector *)
Lemma comp_le (d : V3 R) : Rabs (vx d) <= vlen d /\ Rabs (vy d) <= vlen d /\ Rabs (vz d) <= vlen d.
Proof.
  pose proof (vlen_nonneg d) as N. pose proof (vlen_sq d) as S. unfold vdot in S.
  assert (K : forall x, x * x <= vlen d * vlen d -> Rabs x <= vlen d).
  { intros x H. apply Rsqr_incr_0_var; [|exact N]. rewrite <- Rsqr_abs. exact H. }
  repeat split; apply K; nra.
Qed.
Lemma normalize_app (d : V3 F) : vec_finite d -> bpow radix2 (- E) <= vlen (vreal d) <= bpow radix2 E ->
  app (vx (v3_normalize d)) (vx (vunit (vreal d))) 1 5.02 /\
  app (vy (v3_normalize d)) (vy (vunit (vreal d))) 1 5.02 /\
  app (vz (v3_normalize d)) (vz (vunit (vreal d))) 1 5.02.
Proof.
  intros (FX & FY & FZ) LL. apply fl_finite in FX, FY, FZ.
  assert (L0 : 0 < vlen (vreal d)) by (pose proof (bpow_gt_0 radix2 (- E)); lra).
  pose proof (comp_le (vreal d)) as (LX & LY & LZ). cbn [vreal vx vy vz] in LX, LY, LZ.
  unfold vunit, vscl, v3_normalize, v3_unscale, vreal at 2 4 6. cbn [vx vy vz].
  assert (one : 1 = vlen (vreal d) / vlen (vreal d)) by (field; lra).
  repeat split.
  all: match goal with |- app _ (1 / ?l * ?x) _ _ => replace (1 / l * x) with (x / l) by (field; lra) | |- app _ (/ ?l * ?x) _ _ => replace (/ l * x) with (x / l) by (field; lra) end.
  all: rewrite one; apply div_norm_app; try assumption; try reflexivity; rewrite <- one.
  1,3,5: apply (bpow_le radix2 _ 0); lia.
  all: rewrite Rmult_1_r; apply (bpow_le radix2 4); lia.
Qed.

(** one coordinate of the scaled direction *)
Lemma scaled_app s y L M D r : app s (D / L) (M / L) 5.02 -> flr y r -> Rabs r <= L ->
  bpow radix2 (- E) <= L <= bpow radix2 E -> 1 <= M <= bpow radix2 E ->
  app (o_mul s y) (D / L * r) M 6.03.
Proof.
  intros S Y A LL MM. assert (L0 : 0 < L) by (pose proof (bpow_gt_0 radix2 (- E)); lra).
  replace M with (M / L * L) by (field; lra).
  assert (ML : M / L * L = M) by (field; lra).
  apply (app_mul prec emax Hp He fsin fcos _ (Rle_refl _) (u11 prec P11) s y (D / L) r (M / L) L 5.02 0).
  - exact S.
  - now apply app_exact.
  - lra. - lra. - lra.
  - rewrite ML. apply Rle_trans with 1; [|lra]. apply (bpow_le radix2 _ 0). lia.
  - rewrite ML. apply Rle_lt_trans with (bpow radix2 (2 + E)); [rewrite bpow_plus; simpl (bpow radix2 2); lra|apply bpow_lt; lia].
Qed.
Lemma offset_near s c a M r : app s a M 6.03 -> flr c r -> Rabs r <= M -> 1 <= M <= bpow radix2 E ->
  near (9 * u * M) (o_add c s) (r + a) /\ near (9 * u * M) (o_add s c) (r + a).
Proof.
  intros (b & S & Db & Sb) C A MM. pose proof U0 as u0. pose proof U1 as u1.
  assert (uM : 0 < u * M <= M / 2048) by nra.
  assert (B : Rabs b <= 1.003 * M).
  { replace b with ((b - a) + a) by ring. eapply Rle_trans; [apply tri; eassumption|]. nra. }
  assert (T : tiny <= 2.01 * M).
  { apply Rle_trans with 1; [|lra]. apply (bpow_le radix2 _ 0). lia. }
  assert (Bg : (1 + u) * (2.01 * M) < big).
  { apply Rle_lt_trans with (bpow radix2 (2 + E)); [rewrite bpow_plus; simpl (bpow radix2 2); nra|apply bpow_lt; lia]. }
  split.
  - destruct (add_err prec emax Hp He fsin fcos _ _ _ _ (2.01 * M) C S T) as (t & (Ft & Vt) & Dt & _); [|exact Bg|].
    + eapply Rle_trans; [apply tri; eassumption|]. lra.
    + split; [exact Ft|]. rewrite Vt. replace (t - (r + a)) with ((t - (r + b)) + (b - a)) by ring.
      eapply Rle_trans; [apply tri; eassumption|]. lra.
  - destruct (add_err prec emax Hp He fsin fcos _ _ _ _ (2.01 * M) S C T) as (t & (Ft & Vt) & Dt & _); [|exact Bg|].
    + eapply Rle_trans; [apply tri; eassumption|]. lra.
    + split; [exact Ft|]. rewrite Vt. replace (t - (r + a)) with ((t - (b + r)) + (b - a)) by ring.
      eapply Rle_trans; [apply tri; eassumption|]. lra.
Qed.

Lemma at_distance_rows (c d : V3 F) dist M : vec_sized M c -> 
  vec_finite d ->
  bpow radix2 (- E) <= vlen (vreal d) <= bpow radix2 E -> sized 0 M dist -> 1 <= M <= bpow radix2 E ->
  vec_near (9 * u * M) (so_at_distance_row c dist d) (point_away c dist d) /\
  vec_near (9 * u * M) (sd_at_distance_row d dist c) (point_away c dist d).
Proof.
  intros ((CX & CX') & (CY & CY') & (CZ & CZ')) (FX & FY & FZ) LL (FD & DD) MM.
  apply fl_finite in FX, FY, FZ, CX, CY, CZ, FD.
  pose proof (scale_app d _ M dist _ FX FY FZ eq_refl LL FD (proj2 DD) MM) as S.
  change (v3_norm d) with (o_sqrt (o_add (o_add (o_mul (vx d) (vx d)) (o_mul (vy d) (vy d))) (o_mul (vz d) (vz d)))) in S.
  pose proof (comp_le (vreal d)) as (LX & LY & LZ). cbn [vreal vx vy vz] in LX, LY, LZ.
  pose proof (scaled_app _ _ _ _ _ _ S FX LX LL MM) as SX.
  pose proof (scaled_app _ _ _ _ _ _ S FY LY LL MM) as SY.
  pose proof (scaled_app _ _ _ _ _ _ S FZ LZ LL MM) as SZ.
  pose proof (offset_near _ _ _ _ _ SX CX (proj2 CX') MM) as (NX & NX').
  pose proof (offset_near _ _ _ _ _ SY CY (proj2 CY') MM) as (NY & NY').
  pose proof (offset_near _ _ _ _ _ SZ CZ (proj2 CZ') MM) as (NZ & NZ').
  unfold so_at_distance_row, sd_at_distance_row, point_away, vadd, vscl, vreal, vec_near. cbn [vx vy vz].
  repeat split; first [apply NX|apply NY|apply NZ|apply NX'|apply NY'|apply NZ'].
Qed.

Lemma C89_lemma {C} M dist (c d : V3 F) dirs centers : 1 <= M <= bpow radix2 E -> sized 0 M dist ->
  (vec_sized M c -> Forall (fun d => vec_finite d /\ bpow radix2 (- E) <= vlen (vreal d) <= bpow radix2 E) dirs ->
   exists pts, point_on_ray_at_distance (mkRayBundle (Coords := C) dirs (mkSO c)) dist = Some (mkPoints pts) /\
     Forall2 (fun d p => vec_near (9 * u * M) p (point_away c dist d)) dirs pts) /\
  (vec_finite d -> bpow radix2 (- E) <= vlen (vreal d) <= bpow radix2 E -> Forall (vec_sized M) centers ->
   exists pts, point_on_ray_at_distance (mkRayBundle (Coords := C) centers (mkSD d)) dist = Some (mkPoints pts) /\
     Forall2 (fun c p => vec_near (9 * u * M) p (point_away c dist d)) centers pts).
Proof.
  intros MM DD. split.
  - intros CC H. eexists. split; [apply so_at_distance_rows|]. apply Forall2_map_l. eapply Forall_impl; [|exact H].
    cbn [so_center]. intros a (A & B). now apply at_distance_rows.
  - intros A B H. eexists. split; [apply sd_at_distance_rows|]. apply Forall2_map_l. eapply Forall_impl; [|exact H].
    cbn [sd_direction]. intros a CC. now apply at_distance_rows.
Qed.
End Dir.

Section Extreme.
Variables (prec emax : Z) (Hp : Prec_gt_0 prec) (He : Prec_lt_emax prec emax).
Variables fsin fcos : binary_float prec emax -> binary_float prec emax.
Local Notation F := (binary_float prec emax).
Local Hint Extern 0 (Ops (binary_float prec emax)) =>
  exact (B_ops prec emax Hp He fsin fcos) : typeclass_instances.
Local Open Scope R_scope.
Local Notation big := (bpow radix2 emax).
Local Notation flr := (fl prec emax).
Local Notation rnd := (rnd prec emax).
Local Instance fexp_valid' : Valid_exp (SpecFloat.fexp prec emax) := fexp_correct prec emax Hp.

Definition pos (x : F) : Prop := is_nan x = false /\ Bsign x = false.
Lemma pos_val (x : F) : is_finite x = true -> pos x -> 0 <= B2R x.
Proof.
  intros A (_ & S). destruct x as [s|s| |s m e b]; try discriminate; [cbn; lra|]. cbn in S. subst.
  apply F2R_ge_0. cbn. lia.
Qed.
Lemma sq_pos (x : F) : is_finite x = true -> pos (o_mul x x).
Proof.
  intros A. pose proof (Bmult_correct prec emax Hp He mode_NE x x) as C.
  change (o_mul x x) with (Bmult mode_NE x x). destruct (Rlt_bool _ _).
  - destruct C as (_ & C1 & C2). rewrite A in C1. cbn in C1.
    assert (N : is_nan (Bmult mode_NE x x) = false) by (destruct (Bmult mode_NE x x); try reflexivity; discriminate).
    split; [exact N|]. rewrite (C2 N). now destruct (Bsign x).
  - rewrite xorb_nilpotent in C. destruct (Bmult mode_NE x x); try discriminate C. injection C as ->. now split.
Qed.
Lemma sq_inf (x : F) : is_finite x = true -> big <= B2R x * B2R x -> o_mul x x = B754_infinity false.
Proof.
  intros A H. pose proof (Bmult_correct prec emax Hp He mode_NE x x) as C. rewrite Rlt_bool_false in C.
  - change (o_mul x x) with (Bmult mode_NE x x). rewrite xorb_nilpotent in C.
    destruct (Bmult mode_NE x x); try discriminate C. injection C as ->. reflexivity.
  - eapply Rle_trans; [|apply Rle_abs]. apply (rnd_ge_fmt prec emax Hp); [|exact H].
    apply fmt_bpow; [exact Hp|]. unfold Prec_gt_0, Prec_lt_emax in *. lia.
Qed.
Lemma inf_add_l (y : F) : pos y -> o_add (B754_infinity false) y = B754_infinity false.
Proof. intros (A & B). destruct y as [s|[]| |s m e b]; try discriminate; reflexivity. Qed.
Lemma inf_add_r (y : F) : pos y -> o_add y (B754_infinity false) = B754_infinity false.
Proof. intros (A & B). destruct y as [s|[]| |s m e b]; try discriminate; reflexivity. Qed.
Lemma pos_inf : pos (B754_infinity false). Proof. now split. Qed.
Lemma pos_add (x y : F) : pos x -> pos y -> pos (o_add x y).
Proof.
  intros X Y. destruct (is_finite x) eqn:FX.
  2:{ assert (x = B754_infinity false) as -> by (destruct X; destruct x as [s|[]| |]; try discriminate; reflexivity).
      rewrite inf_add_l by exact Y. apply pos_inf. }
  destruct (is_finite y) eqn:FY.
  2:{ assert (y = B754_infinity false) as -> by (destruct Y; destruct y as [s|[]| |]; try discriminate; reflexivity).
      rewrite inf_add_r by exact X. apply pos_inf. }
  pose proof (Bplus_correct prec emax Hp He mode_NE x y FX FY) as C. change (o_add x y) with (Bplus mode_NE x y).
  pose proof (pos_val x FX X) as PX. pose proof (pos_val y FY Y) as PY. destruct X as (_ & SX), Y as (_ & SY).
  destruct (Rlt_bool _ _).
  - destruct C as (_ & C1 & C2). split; [destruct (Bplus mode_NE x y); try reflexivity; discriminate|].
    rewrite C2. destruct (Rcompare_spec (B2R x + B2R y) 0); [lra|now rewrite SX, SY|reflexivity].
  - destruct C as (C & _). rewrite SX in C. destruct (Bplus mode_NE x y); try discriminate C. injection C as ->. now split.
Qed.

(** some coordinate too large to be squared *)
Lemma norm_inf (d : V3 F) : vec_finite d -> 
  big <= B2R (vx d) * B2R (vx d) \/ big <= B2R (vy d) * B2R (vy d) \/ big <= B2R (vz d) * B2R (vz d) ->
  v3_norm d = B754_infinity false.
Proof.
  intros (FX & FY & FZ) H. change (v3_norm d) with (o_sqrt (o_add (o_add (o_mul (vx d) (vx d)) (o_mul (vy d) (vy d))) (o_mul (vz d) (vz d)))).
  assert (K : o_add (o_add (o_mul (vx d) (vx d)) (o_mul (vy d) (vy d))) (o_mul (vz d) (vz d)) = B754_infinity false); [|rewrite K; reflexivity].
  pose proof (sq_pos _ FX) as PX. pose proof (sq_pos _ FY) as PY. pose proof (sq_pos _ FZ) as PZ.
  destruct H as [H|[H|H]].
  - rewrite (sq_inf _ FX H). rewrite inf_add_l by exact PY. now apply inf_add_l.
  - rewrite (sq_inf _ FY H). rewrite inf_add_r by exact PX. now apply inf_add_l.
  - rewrite (sq_inf _ FZ H). apply inf_add_r. now apply pos_add.
Qed.
Lemma add_is_zero (c z : F) : is_finite c = true -> is_zero prec emax z -> near 0 (o_add c z) (B2R c) /\ near 0 (o_add z c) (B2R c).
Proof.
  intros A (s & ->). unfold near. destruct c as [t|t| |t m e b]; try discriminate.
  - destruct s, t; cbn; rewrite Rminus_0_r, Rabs_R0; repeat split; lra.
  - split; split; try reflexivity; match goal with |- Rabs (?a - ?b) <= 0 => change a with b end;
    rewrite Rminus_diag_eq, Rabs_R0 by reflexivity; lra.
Qed.
Lemma long_rows (c d : V3 F) dist : is_finite dist = true -> vec_finite c -> vec_finite d ->
  big <= B2R (vx d) * B2R (vx d) \/ big <= B2R (vy d) * B2R (vy d) \/ big <= B2R (vz d) * B2R (vz d) ->
  vec_near 0 (so_at_distance_row c dist d) (vreal c) /\ vec_near 0 (sd_at_distance_row d dist c) (vreal c).
Proof.
  intros FD (CX & CY & CZ) D H. pose proof (norm_inf d D H) as N. destruct D as (FX & FY & FZ).
  change (v3_norm d) with (o_sqrt (o_add (o_add (o_mul (vx d) (vx d)) (o_mul (vy d) (vy d))) (o_mul (vz d) (vz d)))) in N.
  unfold so_at_distance_row, sd_at_distance_row. rewrite N.
  assert (Z : forall y : F, is_finite y = true -> is_zero prec emax (o_mul (o_div dist (B754_infinity false)) y)).
  { intros y FY'. destruct dist as [s|s| |s m e b]; try discriminate; destruct y as [s'|s'| |s' m' e' b']; try discriminate; eexists; reflexivity. }
  unfold vec_near, vreal. cbn [vx vy vz].
  repeat split; first [apply (add_is_zero _ _ CX)|apply (add_is_zero _ _ CY)|apply (add_is_zero _ _ CZ)]; now apply Z.
Qed.

(** all coordinates so small that their squares vanish *)
Lemma sq_zero (x : F) : is_finite x = true -> B2R x * B2R x <= bpow radix2 (1 - emax - prec) -> is_zero prec emax (o_mul x x).
Proof.
  intros A H. pose proof (Bmult_correct prec emax Hp He mode_NE x x) as C.
  assert (K : rnd (B2R x * B2R x) = 0).
  { unfold FloatRound.rnd. destruct (Req_dec (B2R x * B2R x) 0) as [Z|Z]; [rewrite Z; apply round_0; auto with typeclass_instances|].
    assert (P : 0 < B2R x * B2R x) by nra.
    apply (round_N_small_pos radix2 (SpecFloat.fexp prec emax) _ (B2R x * B2R x) (mag radix2 (B2R x * B2R x))).
    - destruct (mag radix2 (B2R x * B2R x)) as (m & M). cbn. specialize (M Z). rewrite Rabs_pos_eq in M by lra. exact M.
    - assert (L : (mag radix2 (B2R x * B2R x) <= 2 - emax - prec)%Z).
      { apply mag_le_bpow; [exact Z|]. rewrite Rabs_pos_eq by lra. eapply Rle_lt_trans; [exact H|]. apply bpow_lt. lia. }
      unfold SpecFloat.fexp, SpecFloat.emin. lia. }
  change (round radix2 (SpecFloat.fexp prec emax) (round_mode mode_NE) (B2R x * B2R x)) with (rnd (B2R x * B2R x)) in C.
  rewrite K, Rabs_R0, Rlt_bool_true in C by apply bpow_gt_0. destruct C as (C & C1 & _). rewrite A in C1.
  change (is_zero prec emax (Bmult mode_NE x x)).
  destruct (Bmult mode_NE x x) as [s|s| |s m e B]; try discriminate; [now exists s|].
  cbn in C. apply eq_0_F2R in C. destruct s; discriminate.
Qed.
Lemma short_rows (c d : V3 F) dist : vec_finite d ->
  B2R (vx d) * B2R (vx d) <= bpow radix2 (1 - emax - prec) -> B2R (vy d) * B2R (vy d) <= bpow radix2 (1 - emax - prec) ->
  B2R (vz d) * B2R (vz d) <= bpow radix2 (1 - emax - prec) ->
  vec_not_finite (so_at_distance_row c dist d) /\ vec_not_finite (sd_at_distance_row d dist c).
Proof.
  intros (FX & FY & FZ) HX HY HZ.
  assert (N : is_zero prec emax (o_sqrt (o_add (o_add (o_mul (vx d) (vx d)) (o_mul (vy d) (vy d))) (o_mul (vz d) (vz d))))).
  { apply zero_sqrt, zero_add_zero; [apply zero_add_zero|]; now apply sq_zero. }
  unfold so_at_distance_row, sd_at_distance_row. destruct N as (s & ->).
  assert (D : is_finite (o_div dist (B754_zero s)) = false) by (destruct dist; reflexivity).
  assert (M : forall x y : F, is_finite x = false -> is_finite (o_mul x y) = false)
    by (intros x y; destruct x; try discriminate; destruct y; reflexivity).
  assert (A : forall x y : F, is_finite x = false -> is_finite (o_add x y) = false /\ is_finite (o_add y x) = false).
  { intros x y; destruct x as [|t| |]; try discriminate; destruct y as [|t'| |]; try (split; reflexivity); destruct t, t'; split; reflexivity. }
  unfold vec_not_finite. cbn [vx vy vz].
  repeat split; first [apply (fun x y H => proj2 (A x y H)), M, D|apply (fun x y H => proj1 (A x y H)), M, D].
Qed.

Lemma abs_sq_ge x a : bpow radix2 a <= Rabs x -> (emax <= 2 * a)%Z -> big <= x * x.
Proof.
  intros H A. replace (x * x) with (Rabs x * Rabs x) by (rewrite <- Rabs_mult; apply Rabs_pos_eq; nra).
  apply Rle_trans with (bpow radix2 (a + a)); [apply bpow_le; lia|]. rewrite bpow_plus.
  pose proof (bpow_ge_0 radix2 a). now apply Rmult_le_compat.
Qed.
Lemma abs_sq_le x a : Rabs x <= bpow radix2 a -> (2 * a <= 1 - emax - prec)%Z -> x * x <= bpow radix2 (1 - emax - prec).
Proof.
  intros H A. replace (x * x) with (Rabs x * Rabs x) by (rewrite <- Rabs_mult; apply Rabs_pos_eq; nra).
  apply Rle_trans with (bpow radix2 (a + a)); [|apply bpow_le; lia]. rewrite bpow_plus.
  pose proof (Rabs_pos x). now apply Rmult_le_compat.
Qed.

Lemma C90_lemma {C} (a b : Z) (c d : V3 F) (dist : F) dirs centers : (emax <= 2 * a)%Z -> (2 * b <= 1 - emax - prec)%Z ->
  let long (d : V3 F) := vec_finite d /\ (bpow radix2 a <= Rabs (B2R (vx d)) \/ bpow radix2 a <= Rabs (B2R (vy d)) \/ bpow radix2 a <= Rabs (B2R (vz d))) in
  let short (d : V3 F) := vec_sized (bpow radix2 b) d in
  (is_finite dist = true -> vec_finite c -> Forall long dirs ->
   exists pts, point_on_ray_at_distance (mkRayBundle (Coords := C) dirs (mkSO c)) dist = Some (mkPoints pts) /\
     Forall2 (fun _ p => vec_near 0 p (vreal c)) dirs pts) /\
  (is_finite dist = true -> long d -> Forall vec_finite centers ->
   exists pts, point_on_ray_at_distance (mkRayBundle (Coords := C) centers (mkSD d)) dist = Some (mkPoints pts) /\
     Forall2 (fun c p => vec_near 0 p (vreal c)) centers pts) /\
  (Forall short dirs ->
   exists pts, point_on_ray_at_distance (mkRayBundle (Coords := C) dirs (mkSO c)) dist = Some (mkPoints pts) /\
     Forall2 (fun _ p => vec_not_finite p) dirs pts) /\
  (short d ->
   exists pts, point_on_ray_at_distance (mkRayBundle (Coords := C) centers (mkSD d)) dist = Some (mkPoints pts) /\
     Forall2 (fun _ p => vec_not_finite p) centers pts).
Proof.
  intros A B long short.
  assert (L : forall d, long d -> vec_finite d /\ 
    (big <= B2R (vx d) * B2R (vx d) \/ big <= B2R (vy d) * B2R (vy d) \/ big <= B2R (vz d) * B2R (vz d))).
  { intros v (V & K). split; [exact V|]. destruct K as [K|[K|K]]; [left|right; left|right; right]; now apply (abs_sq_ge _ a). }
  assert (S : forall d, short d -> vec_finite d /\
    B2R (vx d) * B2R (vx d) <= bpow radix2 (1 - emax - prec) /\ B2R (vy d) * B2R (vy d) <= bpow radix2 (1 - emax - prec) /\
    B2R (vz d) * B2R (vz d) <= bpow radix2 (1 - emax - prec)).
  { intros v ((V1 & K1) & (V2 & K2) & (V3 & K3)). repeat split; try assumption; apply (abs_sq_le _ b); tauto. }
  split; [|split; [|split]].
  - intros FD CC H. eexists. split; [apply so_at_distance_rows|]. apply Forall2_map_l. eapply Forall_impl; [|exact H].
    cbn [so_center]. intros v V. destruct (L v V). now apply long_rows.
  - intros FD D H. eexists. split; [apply sd_at_distance_rows|]. apply Forall2_map_l. eapply Forall_impl; [|exact H].
    cbn [sd_direction]. intros v V. destruct (L d D). now apply long_rows.
  - intros H. eexists. split; [apply so_at_distance_rows|]. apply Forall2_map_l. eapply Forall_impl; [|exact H].
    cbn [so_center]. intros v V. destruct (S v V) as (? & ? & ? & ?). now apply short_rows.
  - intros D. eexists. split; [apply sd_at_distance_rows|]. apply Forall2_map_l. apply Forall_forall.
    cbn [sd_direction]. intros v V. destruct (S d D) as (? & ? & ? & ?). now apply short_rows.
Qed.
End Extreme.
