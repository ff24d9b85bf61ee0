(** * FloatErrProofs.v - rounding errors of the pixel round trips (C55, C56) *)

From Coq Require Import ZArith Reals List Bool Lra Lia Psatz.
From Flocq Require Import Core BinarySingleNaN.
From Verif Require Import Scalar Linalg Bundles Perspective Orthographic Rows Spec SpecFloatErr FloatBase FloatRound.
Import ListNotations.

Section FloatErr.
Variables (prec emax : Z) (Hp : Prec_gt_0 prec) (He : Prec_lt_emax prec emax).
Variables fsin fcos : binary_float prec emax -> binary_float prec emax.
Local Notation F := (binary_float prec emax).
Local Hint Extern 0 (Ops (binary_float prec emax)) =>
  exact (B_ops prec emax Hp He fsin fcos) : typeclass_instances.
Local Open Scope R_scope.
Local Notation u := (bpow radix2 (- prec)).
Local Notation big := (bpow radix2 emax).
Local Notation tiny := (bpow radix2 (2 - emax)).
Local Notation flr := (fl prec emax).
Local Notation rnd := (rnd prec emax).
Local Notation fmt := (fmt prec emax).
Local Instance fexp_valid : Valid_exp (SpecFloat.fexp prec emax) := fexp_correct prec emax Hp.

Lemma u_pos : 0 < u. Proof. apply bpow_gt_0. Qed.
Lemma tiny_pos : 0 < tiny. Proof. apply bpow_gt_0. Qed.

(** the rounding error of a number of size at most [W] *)
Lemma rnd_err x W : tiny <= W -> Rabs x <= W -> Rabs (rnd x - x) <= u * W.
Proof.
  intros T L. pose proof tiny_pos as P.
  pose proof (error_le_half_ulp radix2 (SpecFloat.fexp prec emax) (fun z => negb (Z.even z)) x) as H.
  fold (FloatRound.rnd prec emax x) in H.
  assert (U : ulp radix2 (SpecFloat.fexp prec emax) x <= ulp radix2 (SpecFloat.fexp prec emax) W).
  { apply ulp_le; [apply fexp_correct, Hp|apply (FLT_exp_monotone (3 - emax - prec) prec)|].
    rewrite (Rabs_pos_eq W); lra. }
  assert (V : ulp radix2 (SpecFloat.fexp prec emax) W <= Rabs W * bpow radix2 (1 - prec)).
  { apply (ulp_FLT_le radix2 (3 - emax - prec) prec). rewrite (Rabs_pos_eq W) by lra.
    replace (3 - emax - prec + prec - 1)%Z with (2 - emax)%Z by lia. exact T. }
  rewrite (Rabs_pos_eq W) in V by lra.
  replace (1 - prec)%Z with (- prec + 1)%Z in V by lia. rewrite bpow_plus in V. simpl (bpow radix2 1) in V. lra.
Qed.
Lemma rnd_near x W : tiny <= W -> Rabs x <= W -> Rabs (rnd x - x) <= u * W /\ Rabs (rnd x) <= (1 + u) * W.
Proof.
  intros T L. pose proof (rnd_err x W T L) as E. split; [exact E|].
  replace (rnd x) with ((rnd x - x) + x) by ring.
  eapply Rle_trans; [apply Rabs_triang|]. lra.
Qed.

Lemma sub_err x y a b W : flr x a -> flr y b -> tiny <= W -> Rabs (a - b) <= W -> (1 + u) * W < big ->
  exists r, flr (o_sub x y) r /\ Rabs (r - (a - b)) <= u * W /\ Rabs r <= (1 + u) * W.
Proof.
  intros X Y T L B. destruct (rnd_near _ _ T L) as (E & G). exists (rnd (a - b)).
  split; [|split; assumption]. apply fl_sub; auto. unfold FloatRound.big. lra.
Qed.
Lemma add_err x y a b W : flr x a -> flr y b -> tiny <= W -> Rabs (a + b) <= W -> (1 + u) * W < big ->
  exists r, flr (o_add x y) r /\ Rabs (r - (a + b)) <= u * W /\ Rabs r <= (1 + u) * W.
Proof.
  intros X Y T L B. destruct (rnd_near _ _ T L) as (E & G). exists (rnd (a + b)).
  split; [|split; assumption]. apply fl_add; auto. unfold FloatRound.big. lra.
Qed.
Lemma mul_err x y a b W : flr x a -> flr y b -> tiny <= W -> Rabs (a * b) <= W -> (1 + u) * W < big ->
  exists r, flr (o_mul x y) r /\ Rabs (r - a * b) <= u * W /\ Rabs r <= (1 + u) * W.
Proof.
  intros X Y T L B. destruct (rnd_near _ _ T L) as (E & G). exists (rnd (a * b)).
  split; [|split; assumption]. apply fl_mul; auto. unfold FloatRound.big. lra.
Qed.
Lemma div_err x y a b W : flr x a -> flr y b -> b <> 0 -> tiny <= W -> Rabs (a / b) <= W -> (1 + u) * W < big ->
  exists r, flr (o_div x y) r /\ Rabs (r - a / b) <= u * W /\ Rabs r <= (1 + u) * W.
Proof.
  intros X Y N T L B. destruct (rnd_near _ _ T L) as (E & G). exists (rnd (a / b)).
  split; [|split; assumption]. apply fl_div; auto. unfold FloatRound.big. lra.
Qed.

(** exact operations *)
Lemma add_0_l x z a : flr z 0 -> flr x a -> flr (o_add z x) a.
Proof.
  intros Z X. pose proof (fl_add prec emax Hp He fsin fcos _ _ _ _ Z X) as H. rewrite Rplus_0_l in H.
  rewrite rnd_id in H by (assumption || exact (fl_fmt _ _ _ _ X)). apply H. exact (fl_lt_big _ _ _ _ X).
Qed.
Lemma add_0_r x z a : flr z 0 -> flr x a -> flr (o_add x z) a.
Proof.
  intros Z X. pose proof (fl_add prec emax Hp He fsin fcos _ _ _ _ X Z) as H. rewrite Rplus_0_r in H.
  rewrite rnd_id in H by (assumption || exact (fl_fmt _ _ _ _ X)). apply H. exact (fl_lt_big _ _ _ _ X).
Qed.
Lemma mul_0_l x z a : flr z 0 -> flr x a -> flr (o_mul z x) 0.
Proof.
  intros Z X. pose proof (fl_mul prec emax Hp He fsin fcos _ _ _ _ Z X) as H. rewrite Rmult_0_l in H.
  rewrite rnd_id in H by (assumption || apply fmt_0). apply H. rewrite Rabs_R0. apply bpow_gt_0.
Qed.
Lemma mul_1_r x a : flr x a -> flr (o_mul x o_one) a.
Proof.
  intros X. pose proof (fl_mul prec emax Hp He fsin fcos _ _ _ _ X (fl_one prec emax Hp He fsin fcos)) as H.
  rewrite Rmult_1_r in H. rewrite rnd_id in H by (assumption || exact (fl_fmt _ _ _ _ X)). apply H.
  exact (fl_lt_big _ _ _ _ X).
Qed.
Lemma div_1_r x y a : flr x a -> flr y 1 -> flr (o_div x y) a.
Proof.
  intros X Y. pose proof (fl_div prec emax Hp He fsin fcos _ _ _ _ X Y R1_neq_R0) as H.
  unfold Rdiv in H. rewrite Rinv_1, Rmult_1_r in H.
  rewrite rnd_id in H by (assumption || exact (fl_fmt _ _ _ _ X)). apply H. exact (fl_lt_big _ _ _ _ X).
Qed.

(** ** The ranges *)
Section Ranges.
Variables (E : Z) (M : R).
Hypotheses (P5 : (5 <= prec)%Z) (E0 : (0 <= E)%Z) (E2 : (2 * E + 5 <= emax)%Z) (M1 : 1 <= M <= bpow radix2 E).

Lemma u32 : u <= / 32.
Proof.
  apply Rle_trans with (bpow radix2 (-5)); [apply bpow_le; lia|]. simpl. lra.
Qed.
Lemma big_M W : W <= 16 * M -> W < big.
Proof.
  intros H. apply Rle_lt_trans with (bpow radix2 (E + 4)).
  - rewrite bpow_plus. simpl (bpow radix2 4). lra.
  - apply bpow_lt. lia.
Qed.
Lemma tiny_1 : tiny <= 1.
Proof. apply (bpow_le radix2 _ 0). lia. Qed.
Lemma scale_pos s : bpow radix2 (- E) <= Rabs s <= bpow radix2 E -> 0 < Rabs s /\ s <> 0.
Proof.
  intros [L _]. pose proof (bpow_gt_0 radix2 (- E)). split; [lra|]. intros ->. rewrite Rabs_R0 in L. lra.
Qed.
Lemma inv_scale s : bpow radix2 (- E) <= Rabs s <= bpow radix2 E -> bpow radix2 (- E) <= / Rabs s <= bpow radix2 E.
Proof.
  intros H. pose proof (scale_pos s H) as [P _]. destruct H as [L U].
  split.
  - rewrite bpow_opp. apply Rinv_le_contravar; assumption.
  - replace (bpow radix2 E) with (/ bpow radix2 (- E)) by (rewrite bpow_opp; apply Rinv_inv).
    apply Rinv_le_contravar; [apply bpow_gt_0|assumption].
Qed.
Lemma div_big s W : bpow radix2 (- E) <= Rabs s <= bpow radix2 E -> 0 <= W <= 16 * M -> W / Rabs s < big.
Proof.
  intros H [W0 W1]. destruct (inv_scale s H) as [_ U]. pose proof (scale_pos s H) as [P _].
  assert (0 <= / Rabs s) by (left; now apply Rinv_0_lt_compat).
  apply Rle_lt_trans with (bpow radix2 (E + 4) * bpow radix2 E).
  - unfold Rdiv. apply Rmult_le_compat; try assumption. rewrite bpow_plus. simpl (bpow radix2 4). lra.
  - rewrite <- bpow_plus. apply bpow_lt. lia.
Qed.
Lemma tiny_div s W : bpow radix2 (- E) <= Rabs s <= bpow radix2 E -> 1 <= W -> tiny <= W / Rabs s.
Proof.
  intros H W1. destruct (inv_scale s H) as [L _].
  apply Rle_trans with (bpow radix2 (- E)); [apply bpow_le; lia|].
  pose proof (bpow_gt_0 radix2 (- E)). unfold Rdiv. nra.
Qed.

(** divide by [s], multiply by [s]: [x1] comes back with two relative errors *)
Lemma div_mul_err x1 s r1 b W1 : flr x1 r1 -> flr s b -> bpow radix2 (- E) <= Rabs b <= bpow radix2 E ->
  Rabs r1 <= W1 -> 1 <= W1 <= 8 * M ->
  exists r2, flr (o_div x1 s) r2 /\ Rabs (r2 * b - r1) <= u * W1 /\ Rabs (r2 * b) <= (1 + u) * W1.
Proof.
  intros X S R L W. pose proof (scale_pos b R) as [Pb Nb]. pose proof u_pos as U0. pose proof u32 as U1.
  destruct (div_err x1 s r1 b (W1 / Rabs b) X S Nb) as (r2 & F2 & Er & _).
  - apply tiny_div; [exact R|lra].
  - unfold Rdiv. rewrite Rabs_mult, Rabs_inv. apply Rmult_le_compat_r; [left; now apply Rinv_0_lt_compat|exact L].
  - replace ((1 + u) * (W1 / Rabs b)) with (((1 + u) * W1) / Rabs b) by (field; lra).
    apply div_big; [exact R|]. split; nra.
  - exists r2. split; [exact F2|].
    assert (Q : Rabs (r2 * b - r1) <= u * W1).
    { replace (r2 * b - r1) with ((r2 - r1 / b) * b) by (field; exact Nb). rewrite Rabs_mult.
      replace (u * W1) with ((u * (W1 / Rabs b)) * Rabs b) by (field; lra).
      apply Rmult_le_compat_r; [apply Rabs_pos|exact Er]. }
    split; [exact Q|]. replace (r2 * b) with ((r2 * b - r1) + r1) by ring.
    eapply Rle_trans; [apply Rabs_triang|]. lra.
Qed.

Ltac uM := pose proof u_pos as U0; pose proof u32 as U1;
  assert (0 < u * M) by (apply Rmult_lt_0_compat; lra);
  assert (u * (u * M) <= / 32 * (u * M)) by (apply Rmult_le_compat_r; lra);
  assert (0 < u * (u * M)) by (apply Rmult_lt_0_compat; lra);
  assert (u * M <= / 32 * M) by (apply Rmult_le_compat_r; lra).

Lemma tri a b x y : Rabs a <= x -> Rabs b <= y -> Rabs (a + b) <= x + y.
Proof. intros A B. eapply Rle_trans; [apply Rabs_triang|]. lra. Qed.

(** pixel coordinate [p], center [c], scale [s]:  ((p - c) / s) * s + c *)
Lemma coord_roundtrip p c s rp rc rs : flr p rp -> flr c rc -> flr s rs ->
  Rabs rp <= M -> Rabs rc <= M -> bpow radix2 (- E) <= Rabs rs <= bpow radix2 E ->
  exists q, flr (o_div (o_sub p c) s) q /\ Rabs (q * rs) <= (1 + u) * ((1 + u) * (2 * M)) /\
    Rabs (rnd (q * rs)) < big /\ Rabs (rnd (rnd (q * rs) + rc)) < big /\
    Rabs (rnd (rnd (q * rs) + rc) - rp) <= 8 * u * M.
Proof.
  intros X C S LP LC R. uM. pose proof tiny_1 as T1.
  destruct (sub_err p c rp rc (2 * M) X C) as (r1 & F1 & E1 & B1).
  { lra. } { replace (2 * M) with (M + M) by ring. apply tri; [lra|rewrite Rabs_Ropp; lra]. } { apply big_M. nra. }
  destruct (div_mul_err _ s r1 rs ((1 + u) * (2 * M)) F1 S R B1) as (q & F2 & E2' & B2).
  { split; nra. }
  exists q. split; [exact F2|]. split; [exact B2|].
  destruct (rnd_near (q * rs) ((1 + u) * ((1 + u) * (2 * M)))) as (E3 & B3); [nra|exact B2|].
  set (r3 := rnd (q * rs)) in *.
  assert (D : Rabs (r3 + rc - rp) <= 7 * (u * M)).
  { replace (r3 + rc - rp) with ((r3 - q * rs) + ((q * rs - r1) + (r1 - (rp - rc)))) by ring.
    eapply Rle_trans; [apply tri; [exact E3|apply tri; eassumption]|]. nra. }
  destruct (rnd_near (r3 + rc) (M + 7 * (u * M))) as (E4 & B4).
  { lra. }
  { replace (r3 + rc) with ((r3 + rc - rp) + rp) by ring. eapply Rle_trans; [apply tri; eassumption|]. lra. }
  set (r4 := rnd (r3 + rc)) in *.
  split; [|split].
  - apply big_M. nra.
  - apply big_M. nra.
  - replace (r4 - rp) with ((r4 - (r3 + rc)) + ((r3 - q * rs) + ((q * rs - r1) + (r1 - (rp - rc))))) by ring.
    eapply Rle_trans; [apply tri; [exact E4|apply tri; [exact E3|apply tri; eassumption]]|]. nra.
Qed.

(** the same with a skew term [k] subtracted first and added later *)
Lemma coord_skew_roundtrip p c s k rp rc rs rk : flr p rp -> flr c rc -> flr s rs -> flr k rk ->
  Rabs rp <= M -> Rabs rc <= M -> Rabs rk <= (1 + u) * ((1 + u) * ((1 + u) * (2 * M))) ->
  bpow radix2 (- E) <= Rabs rs <= bpow radix2 E ->
  exists q, flr (o_div (o_sub (o_sub p k) c) s) q /\
    Rabs (rnd (rs * q)) < big /\ Rabs (rnd (rnd (rs * q) + rk)) < big /\
    Rabs (rnd (rnd (rnd (rs * q) + rk) + rc)) < big /\
    Rabs (rnd (rnd (rnd (rs * q) + rk) + rc) - rp) <= 24 * u * M.
Proof.
  intros X C S K LP LC LK R. uM. pose proof tiny_1 as T1.
  assert (LK' : Rabs rk <= 2.2 * M).
  { eapply Rle_trans; [exact LK|].
    assert (Q : (1 + u) * ((1 + u) * (1 + u)) <= 33/32 * (33/32 * (33/32))).
    { apply Rmult_le_compat; try nra. }
    replace ((1 + u) * ((1 + u) * ((1 + u) * (2 * M)))) with ((1 + u) * ((1 + u) * (1 + u)) * (2 * M)) by ring.
    nra. }
  clear LK.
  destruct (sub_err p k rp rk (3.2 * M) X K) as (r1 & F1 & E1 & B1).
  { lra. } { replace (3.2 * M) with (M + 2.2 * M) by lra. apply tri; [lra|rewrite Rabs_Ropp; lra]. } { apply big_M. nra. }
  assert (B1' : Rabs r1 <= 3.3 * M) by nra.
  destruct (sub_err _ c r1 rc (4.3 * M) F1 C) as (r2 & F2 & E2' & B2).
  { lra. } { replace (4.3 * M) with (3.3 * M + M) by lra. apply tri; [lra|rewrite Rabs_Ropp; lra]. } { apply big_M. nra. }
  assert (B2' : Rabs r2 <= 4.45 * M) by nra.
  destruct (div_mul_err _ s r2 rs (4.45 * M) F2 S R B2') as (q & F3 & E3 & B3).
  { split; lra. }
  exists q. split; [exact F3|]. rewrite (Rmult_comm rs q).
  assert (B3' : Rabs (q * rs) <= 4.6 * M) by nra.
  destruct (rnd_near (q * rs) (4.6 * M)) as (E4 & B4); [lra|exact B3'|].
  set (r4 := rnd (q * rs)) in *.
  assert (D4 : Rabs (r4 + rk - (rp - rc)) <= 16.6 * (u * M)).
  { replace (r4 + rk - (rp - rc)) with ((r4 - q * rs) + ((q * rs - r2) + ((r2 - (r1 - rc)) + (r1 - (rp - rk))))) by ring.
    eapply Rle_trans; [apply tri; [exact E4|apply tri; [exact E3|apply tri; eassumption]]|]. lra. }
  destruct (rnd_near (r4 + rk) (2.6 * M)) as (E5 & B5).
  { lra. }
  { replace (r4 + rk) with ((r4 + rk - (rp - rc)) + (rp + - rc)) by ring.
    eapply Rle_trans; [apply tri; [exact D4|apply tri; [exact LP|rewrite Rabs_Ropp; exact LC]]|]. lra. }
  set (r5 := rnd (r4 + rk)) in *.
  assert (D5 : Rabs (r5 + rc - rp) <= 19.2 * (u * M)).
  { replace (r5 + rc - rp) with ((r5 - (r4 + rk)) + (r4 + rk - (rp - rc))) by ring.
    eapply Rle_trans; [apply tri; eassumption|]. lra. }
  destruct (rnd_near (r5 + rc) (1.6 * M)) as (E6 & B6).
  { lra. }
  { replace (r5 + rc) with ((r5 + rc - rp) + rp) by ring. eapply Rle_trans; [apply tri; eassumption|]. lra. }
  set (r6 := rnd (r5 + rc)) in *.
  split; [apply big_M; nra|]. split; [apply big_M; nra|]. split; [apply big_M; nra|].
  replace (r6 - rp) with ((r6 - (r5 + rc)) + (r5 + rc - rp)) by ring.
  eapply Rle_trans; [apply tri; eassumption|]. lra.
Qed.

Local Notation okpix := (fun p : V2 F => sized 0 M (px p) /\ sized 0 M (py p)).
Local Notation okscale := (sized (bpow radix2 (- E)) (bpow radix2 E)).

Lemma sized_fl lo hi (x : F) : sized lo hi x -> flr x (B2R x) /\ lo <= Rabs (B2R x) <= hi.
Proof. intros (A & B). repeat split; tauto. Qed.

Lemma Forall2_map_l {A B} (P : A -> B -> Prop) (f : A -> B) l : Forall (fun a => P a (f a)) l -> Forall2 P l (map f l).
Proof. induction 1; cbn; constructor; auto. Qed.

Lemma fl_zero' : flr o_zero 0. Proof. apply (fl_zero prec emax Hp He fsin fcos). Qed.
Lemma fl_one' : flr o_one 1. Proof. apply (fl_one prec emax Hp He fsin fcos). Qed.

Lemma ortho_row k p : okpix p -> okscale (op_sx k) -> okscale (op_sy k) -> sized 0 M (op_cx k) -> sized 0 M (op_cy k) ->
  pixel_within (8 * u * M) p
    (ortho_project_row k (v3_add (sd_direction sd_new_plusz_shared_direction) (ortho_unproject_row k p))).
Proof.
  intros (X & Y) SX SY CX CY.
  destruct (sized_fl _ _ _ X) as (fX & _ & bX), (sized_fl _ _ _ Y) as (fY & _ & bY),
    (sized_fl _ _ _ CX) as (fCX & _ & bCX), (sized_fl _ _ _ CY) as (fCY & _ & bCY),
    (sized_fl _ _ _ SX) as (fSX & bSX), (sized_fl _ _ _ SY) as (fSY & bSY).
  destruct (coord_roundtrip _ _ _ _ _ _ fX fCX fSX bX bCX bSX) as (q & Q & _ & O1 & O2 & Er).
  destruct (coord_roundtrip _ _ _ _ _ _ fY fCY fSY bY bCY bSY) as (q' & Q' & _ & O1' & O2' & Er').
  unfold ortho_project_row, ortho_unproject_row, v3_add, sd_new_plusz_shared_direction.
  cbn [sd_direction vx vy vz]. unfold pixel_within. cbn [px py].
  assert (A : flr (o_add (o_mul (o_add o_zero (o_div (o_sub (px p) (op_cx k)) (op_sx k))) (op_sx k)) (op_cx k))
                (rnd (rnd (q * B2R (op_sx k)) + B2R (op_cx k)))).
  { apply fl_add; [assumption..| |exact fCX|exact O2]. apply fl_mul; [assumption..| |exact fSX|exact O1].
    apply add_0_l; [apply fl_zero'|exact Q]. }
  assert (B : flr (o_add (o_mul (o_add o_zero (o_div (o_sub (py p) (op_cy k)) (op_sy k))) (op_sy k)) (op_cy k))
                (rnd (rnd (q' * B2R (op_sy k)) + B2R (op_cy k)))).
  { apply fl_add; [assumption..| |exact fCY|exact O2']. apply fl_mul; [assumption..| |exact fSY|exact O1'].
    apply add_0_l; [apply fl_zero'|exact Q']. }
  destruct A as (A1 & A2), B as (B1 & B2). rewrite A2, B2. auto.
Qed.

Lemma C55_lemma (k : OrthographicParams F) pixels :
  okscale (op_sx k) -> okscale (op_sy k) -> sized 0 M (op_cx k) -> sized 0 M (op_cy k) ->
  Forall okpix (pix_data pixels) ->
  exists rays pts back,
    pixel_to_camera (orthographic_from k) pixels = Some rays /\
    point_on_ray rays = Some pts /\
    camera_to_pixel (orthographic_from k) pts = Some back /\
    Forall2 (pixel_within (8 * u * M)) (pix_data pixels) (pix_data back).
Proof.
  intros SX SY CX CY H. do 3 eexists.
  split; [apply ortho_pixel_to_camera_rows|].
  split; [unfold point_on_ray; cbn -[sd_point_on_ray]; apply sd_point_on_ray_rows|].
  split; [apply ortho_camera_to_pixel_rows|].
  cbn [pix_data pts_data io_params orthographic_from]. rewrite !map_map. apply Forall2_map_l.
  eapply Forall_impl; [|exact H]. intros p Hp0. now apply ortho_row.
Qed.

Lemma persp_row k p : okpix p -> okscale (pp_fx k) -> okscale (pp_fy k) -> sized 0 M (pp_cx k) -> sized 0 M (pp_cy k) ->
  sized 0 (Rabs (B2R (pp_fy k))) (pp_skew k) ->
  pixel_within (24 * u * M) p
    (persp_project_row (ip_cache_p (perspective_from k))
       (v3_add (so_center so_new_shared_zero_origin) (persp_unproject_row k p))).
Proof.
  intros (X & Y) SX SY CX CY SK.
  destruct (sized_fl _ _ _ X) as (fX & _ & bX), (sized_fl _ _ _ Y) as (fY & _ & bY),
    (sized_fl _ _ _ CX) as (fCX & _ & bCX), (sized_fl _ _ _ CY) as (fCY & _ & bCY),
    (sized_fl _ _ _ SX) as (fSX & bSX), (sized_fl _ _ _ SY) as (fSY & bSY),
    (sized_fl _ _ _ SK) as (fSK & _ & bSK).
  destruct (coord_roundtrip _ _ _ _ _ _ fY fCY fSY bY bCY bSY) as (q' & Q' & Bq & O1' & O2' & Er').
  assert (BK : Rabs (B2R (pp_skew k) * q') <= (1 + u) * ((1 + u) * (2 * M))).
  { eapply Rle_trans; [|exact Bq]. rewrite Rmult_comm, !Rabs_mult. apply Rmult_le_compat_l; [apply Rabs_pos|exact bSK]. }
  uM. pose proof tiny_1.
  assert (T2 : tiny <= (1 + u) * ((1 + u) * (2 * M))) by nra.
  destruct (mul_err _ _ _ _ _ fSK Q' T2 BK) as (rk & Fk & _ & Bk); [apply big_M; nra|].
  assert (Ek : rk = rnd (B2R (pp_skew k) * q')).
  { assert (G : flr (o_mul (pp_skew k) (o_div (o_sub (py p) (pp_cy k)) (pp_fy k))) (rnd (B2R (pp_skew k) * q'))).
    { apply fl_mul; [assumption..|]. unfold FloatRound.big.
      destruct (rnd_near _ _ T2 BK) as (_ & G). eapply Rle_lt_trans; [exact G|]. apply big_M; nra. }
    destruct Fk as (_ & <-), G as (_ & <-). reflexivity. }
  destruct (coord_skew_roundtrip _ _ _ _ _ _ _ _ fX fCX fSX Fk bX bCX Bk bSX) as (q & Q & O1 & O2 & O3 & Er).
  unfold persp_project_row, persp_unproject_row, v3_add, so_new_shared_zero_origin, v3_to_homogeneous, m34_mulv, perspective_from.
  cbn [so_center vx vy vz wx wy wz ww px py ip_cache_p p00 p01 p02 p03 p10 p11 p12 p13 p20 p21 p22 p23 v3_zero].
  unfold pixel_within. cbn [px py].
  set (y := o_div (o_sub (py p) (pp_cy k)) (pp_fy k)) in *.
  set (x := o_div (o_sub (o_sub (px p) (o_mul (pp_skew k) y)) (pp_cx k)) (pp_fx k)) in *.
  pose proof fl_zero' as Z0. pose proof fl_one' as I1.
  assert (X' : flr (o_add o_zero x) q) by (apply add_0_l; assumption).
  assert (Y' : flr (o_add o_zero y) q') by (apply add_0_l; assumption).
  assert (Z' : flr (o_add o_zero o_one) 1) by (apply add_0_l; assumption).
  set (x' := o_add o_zero x) in *. set (y' := o_add o_zero y) in *. set (z' := o_add o_zero o_one) in *.
  assert (V : forall c r, flr c r -> flr (o_mul c z') r).
  { intros c r Fc. pose proof (fl_mul prec emax Hp He fsin fcos _ _ _ _ Fc Z') as G. rewrite Rmult_1_r in G.
    rewrite rnd_id in G by (assumption || exact (fl_fmt _ _ _ _ Fc)). apply G. exact (fl_lt_big _ _ _ _ Fc). }
  assert (W : forall v r, flr v r -> flr (o_mul o_zero v) 0) by (intros v r; now apply mul_0_l).
  assert (R2 : flr (o_add (o_add (o_add (o_mul o_zero x') (o_mul o_zero y')) (o_mul o_one z')) (o_mul o_zero o_one)) 1).
  { apply add_0_r; [eapply W; exact I1|]. apply add_0_l; [|now apply V].
    apply add_0_r; eapply W; eassumption. }
  assert (A : flr (o_add (o_add (o_add (o_mul (pp_fx k) x') (o_mul (pp_skew k) y')) (o_mul (pp_cx k) z')) (o_mul o_zero o_one))
     (rnd (rnd (rnd (B2R (pp_fx k) * q) + rk) + B2R (pp_cx k)))).
  { apply add_0_r; [eapply W; exact I1|]. apply fl_add; [assumption..| |now apply V|exact O3].
    apply fl_add; [assumption..| | |exact O2].
    - apply fl_mul; assumption.
    - rewrite Ek. apply fl_mul; [assumption..|]. rewrite <- Ek. exact (fl_lt_big _ _ _ _ Fk). }
  assert (B : flr (o_add (o_add (o_add (o_mul o_zero x') (o_mul (pp_fy k) y')) (o_mul (pp_cy k) z')) (o_mul o_zero o_one))
     (rnd (rnd (q' * B2R (pp_fy k)) + B2R (pp_cy k)))).
  { apply add_0_r; [eapply W; exact I1|]. apply fl_add; [assumption..| |now apply V|exact O2'].
    apply add_0_l; [eapply W; eassumption|]. rewrite Rmult_comm. apply fl_mul; [assumption..|].
    rewrite Rmult_comm. exact O1'. }
  pose proof (div_1_r _ _ _ A R2) as (A1 & A2). pose proof (div_1_r _ _ _ B R2) as (B1 & B2).
  rewrite A2, B2. repeat split; try assumption. lra.
Qed.

Lemma C56_lemma (k : PerspectiveParams F) pixels :
  okscale (pp_fx k) -> okscale (pp_fy k) -> sized 0 M (pp_cx k) -> sized 0 M (pp_cy k) ->
  sized 0 (Rabs (B2R (pp_fy k))) (pp_skew k) ->
  Forall okpix (pix_data pixels) ->
  exists rays pts back,
    pixel_to_camera (perspective_from k) pixels = Some rays /\
    point_on_ray rays = Some pts /\
    camera_to_pixel (perspective_from k) pts = Some back /\
    Forall2 (pixel_within (24 * u * M)) (pix_data pixels) (pix_data back).
Proof.
  intros SX SY CX CY SK H. do 3 eexists.
  split; [apply persp_pixel_to_camera_rows|].
  split; [unfold point_on_ray; cbn -[so_point_on_ray]; apply so_point_on_ray_rows|].
  split; [apply persp_camera_to_pixel_rows|].
  cbn [pix_data pts_data ip_params perspective_from]. rewrite !map_map. apply Forall2_map_l.
  eapply Forall_impl; [|exact H]. intros p Hp0. now apply persp_row.
Qed.
End Ranges.
End FloatErr.
