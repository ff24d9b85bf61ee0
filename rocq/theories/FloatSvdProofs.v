(** * FloatSvdProofs.v - rounding errors of the singular value decomposition (C110): operations and rotations *)

From Coq Require Import ZArith Reals List Bool Lra Lia Psatz.
From Flocq Require Import Core BinarySingleNaN.
From Verif Require Import Scalar Linalg Householder SymEigen Spec SpecFloatErr SpecFloatIsect RealBase VecLemmas FloatBase FloatRound FloatErrProofs FloatApprox FloatDirProofs FloatQRProofs.
Import ListNotations.
Local Open Scope R_scope.

Lemma u64_le : bpow radix2 (- (53)) <= 1.12e-16.
Proof. simpl. lra. Qed.
Lemma tiny64_le : bpow radix2 (2 - 1024) <= 1e-150.
Proof. apply Rle_trans with (bpow radix2 (-500)); [apply bpow_le; lia|]. simpl. lra. Qed.
Lemma big64_ge : 1e9 < bpow radix2 1024.
Proof. apply Rlt_le_trans with (bpow radix2 30); [simpl; lra|apply bpow_le; lia]. Qed.

Section F64.
Variables gsin gcos : binary_float 53 1024 -> binary_float 53 1024.
Local Notation F := (binary_float 53 1024).
Local Hint Extern 0 (Ops (binary_float 53 1024)) => exact (B_ops 53 1024 f64_prec f64_emax gsin gcos) : typeclass_instances.
Local Notation u := (bpow radix2 (- (53))).
Local Notation flr := (fl 53 1024).

(** ** Operations on numbers which are not large *)
Lemma near_fl e (x : F) a : near e x a -> exists r, flr x r /\ Rabs (r - a) <= e.
Proof. intros (A & B). exists (B2R x). repeat split; assumption. Qed.
Lemma fl_near e (x : F) r a : flr x r -> Rabs (r - a) <= e -> near e x a.
Proof. intros (A & <-) B. split; assumption. Qed.
Lemma fl_near0 (x : F) r : flr x r -> near 0 x r.
Proof. intros X. apply (fl_near _ _ _ _ X). rewrite Rminus_eq_0, Rabs_R0. lra. Qed.
Lemma near_exact (x : F) : is_finite x = true -> near 0 x (B2R x).
Proof. intros X. apply fl_near0. now split. Qed.
Lemma abs_le_near r a e A : Rabs (r - a) <= e -> Rabs a <= A -> Rabs r <= A + e.
Proof. intros D L. replace r with ((r - a) + a) by ring. eapply Rle_trans; [apply Rabs_triang|]. lra. Qed.

Lemma near_mul e f g A B W (x y : F) a b : near e x a -> near f y b -> Rabs a <= A -> Rabs b <= B ->
  (A + e) * (B + f) <= W -> 1e-100 <= W <= 1e6 -> A * f + B * e + e * f + W * 1.12e-16 <= g -> near g (o_mul x y) (a * b).
Proof.
  intros X Y LA LB L W1 G. destruct (near_fl _ _ _ X) as (r & R & DR). destruct (near_fl _ _ _ Y) as (s & S & DS).
  pose proof (abs_le_near _ _ _ _ DR LA) as RA. pose proof (abs_le_near _ _ _ _ DS LB) as SB. pose proof u64_le as U. pose proof (bpow_gt_0 radix2 (- (53))) as U0.
  pose proof tiny64_le as T. pose proof big64_ge as BG.
  destruct (mul_err 53 1024 f64_prec f64_emax gsin gcos x y r s W R S) as (t & T1 & T2 & _); [lra| |nra|].
  - rewrite Rabs_mult. eapply Rle_trans; [|exact L]. apply Rmult_le_compat; try apply Rabs_pos; assumption.
  - apply (fl_near _ _ _ _ T1). replace (t - a * b) with ((t - r * s) + ((r - a) * (s - b) + a * (s - b) + b * (r - a))) by ring.
    assert (Rabs ((r - a) * (s - b) + a * (s - b) + b * (r - a)) <= e * f + A * f + B * e).
    { eapply Rle_trans; [apply Rabs_triang|]. apply Rplus_le_compat; [eapply Rle_trans; [apply Rabs_triang|]; apply Rplus_le_compat|]; rewrite Rabs_mult; apply Rmult_le_compat; try apply Rabs_pos; assumption. }
    eapply Rle_trans; [apply Rabs_triang|]. assert (u * W <= W * 1.12e-16) by (rewrite (Rmult_comm W); apply Rmult_le_compat_r; lra). lra.
Qed.
Lemma near_add e f g W (x y : F) a b : near e x a -> near f y b -> Rabs (a + b) + e + f <= W -> 1e-100 <= W <= 1e6 ->
  e + f + W * 1.12e-16 <= g -> near g (o_add x y) (a + b).
Proof.
  intros X Y L W1 G. destruct (near_fl _ _ _ X) as (r & R & DR). destruct (near_fl _ _ _ Y) as (s & S & DS).
  pose proof u64_le as U. pose proof (bpow_gt_0 radix2 (- (53))) as U0. pose proof tiny64_le as T. pose proof big64_ge as BG.
  assert (D : Rabs ((r + s) - (a + b)) <= e + f) by (replace ((r + s) - (a + b)) with ((r - a) + (s - b)) by ring; eapply Rle_trans; [apply Rabs_triang|lra]).
  destruct (add_err 53 1024 f64_prec f64_emax gsin gcos x y r s W R S) as (t & T1 & T2 & _); [lra| |nra|].
  - pose proof (abs_le_near _ _ _ _ D (Rle_refl _)). lra.
  - apply (fl_near _ _ _ _ T1). replace (t - (a + b)) with ((t - (r + s)) + ((r + s) - (a + b))) by ring.
    eapply Rle_trans; [apply Rabs_triang|]. assert (u * W <= W * 1.12e-16) by (rewrite (Rmult_comm W); apply Rmult_le_compat_r; lra). lra.
Qed.
Lemma near_sub e f g W (x y : F) a b : near e x a -> near f y b -> Rabs (a - b) + e + f <= W -> 1e-100 <= W <= 1e6 ->
  e + f + W * 1.12e-16 <= g -> near g (o_sub x y) (a - b).
Proof.
  intros X Y L W1 G. destruct (near_fl _ _ _ X) as (r & R & DR). destruct (near_fl _ _ _ Y) as (s & S & DS).
  pose proof u64_le as U. pose proof (bpow_gt_0 radix2 (- (53))) as U0. pose proof tiny64_le as T. pose proof big64_ge as BG.
  assert (D : Rabs ((r - s) - (a - b)) <= e + f) by (replace ((r - s) - (a - b)) with ((r - a) - (s - b)) by ring; unfold Rminus at 1; eapply Rle_trans; [apply Rabs_triang|]; rewrite Rabs_Ropp; lra).
  destruct (sub_err 53 1024 f64_prec f64_emax gsin gcos x y r s W R S) as (t & T1 & T2 & _); [lra| |nra|].
  - pose proof (abs_le_near _ _ _ _ D (Rle_refl _)). lra.
  - apply (fl_near _ _ _ _ T1). replace (t - (a - b)) with ((t - (r - s)) + ((r - s) - (a - b))) by ring.
    eapply Rle_trans; [apply Rabs_triang|]. assert (u * W <= W * 1.12e-16) by (rewrite (Rmult_comm W); apply Rmult_le_compat_r; lra). lra.
Qed.
Lemma near_neg e (x : F) a : near e x a -> near e (o_neg x) (- a).
Proof.
  intros X. destruct (near_fl _ _ _ X) as (r & R & DR). apply (fl_near _ _ _ _ (fl_neg 53 1024 f64_prec f64_emax gsin gcos _ _ R)).
  replace (- r - - a) with (- (r - a)) by ring. now rewrite Rabs_Ropp.
Qed.
Lemma near_two : near 0 (o_two : F) 2.
Proof.
  apply fl_near0. unfold o_two. pose proof (fl_one' 53 1024 f64_prec f64_emax gsin gcos) as O.
  pose proof (fl_add 53 1024 f64_prec f64_emax gsin gcos _ _ _ _ O O) as H. replace (1 + 1) with 2 in H by ring.
  rewrite (rnd_id 53 1024) in H; [apply H|].
  - rewrite Rabs_pos_eq by lra. change 2 with (bpow radix2 1). apply bpow_lt. lia.
  - change 2 with (bpow radix2 1). apply fmt_bpow; [exact f64_prec|lia].
Qed.

(** ** The length of a pair *)
Lemma hypot_f (x y : F) X Y : flr x X -> flr y Y -> let H := sqrt (X * X + Y * Y) in H <= 100 ->
  exists d, flr (o_sqrt (o_add (o_mul x x) (o_mul y y))) d /\ 0 <= d <= 1.01 * H + 3e-60 /\ (1e-60 <= H -> Rabs (d - H) <= 3e-16 * H).
Proof.
  intros FX FY H H100. pose proof u64_le as U. pose proof (bpow_gt_0 radix2 (- (53))) as U0. pose proof tiny64_le as T. pose proof big64_ge as BG.
  assert (P : 0 <= X * X + Y * Y) by nra. assert (HH : H * H = X * X + Y * Y) by now apply sqrt_sqrt. assert (H0 : 0 <= H) by apply sqrt_pos.
  destruct (Rle_lt_dec 1e-60 H) as [G|G].
  - assert (TH : bpow radix2 (2 - 1024) <= H * H) by nra.
    assert (M : forall z Z, flr z Z -> Z * Z <= H * H -> app 53 1024 u (o_mul z z) (Z * Z) (H * H) 1).
    { intros z Z FZ L. destruct (mul_err 53 1024 f64_prec f64_emax gsin gcos z z Z Z (H * H) FZ FZ TH) as (t & T1 & T2 & _); [rewrite Rabs_pos_eq; nra|nra|].
      exists t. split; [exact T1|]. split; [lra|rewrite Rabs_pos_eq; nra]. }
    pose proof (M x X FX ltac:(nra)) as MX. pose proof (M y Y FY ltac:(nra)) as MY. clear M.
    pose proof (app_add_w 53 1024 f64_prec f64_emax gsin gcos ltac:(lia) _ _ _ _ _ _ (H * H) _ _ 2 3.01 MX MY) as A. rewrite <- HH in A.
    assert (A' : app 53 1024 u (o_add (o_mul x x) (o_mul y y)) (H * H) (H * H) 3.01) by (apply A; [rewrite Rabs_pos_eq; lra|lra|lra|lra|exact TH|nra]).
    apply (app_sqrt 53 1024 f64_prec f64_emax gsin gcos ltac:(lia)) in A'; [|lra|lra|lra]. destruct A' as (d & D1 & D2 & _).
    assert (E : Rabs (d - H) <= 3e-16 * H).
    { eapply Rle_trans; [exact D2|]. apply Rmult_le_compat_r; [exact H0|]. lra. }
    exists d. split; [exact D1|]. apply Rabs_le_inv in E. split; [lra|]. intros _. apply Rabs_le. lra.
  - assert (XX : 0 <= X * X <= 1e-120) by nra. assert (YY : 0 <= Y * Y <= 1e-120) by nra.
    assert (M : forall z Z, flr z Z -> 0 <= Z * Z <= 1e-120 -> exists r, flr (o_mul z z) r /\ 0 <= r <= 1.1e-120).
    { intros z Z FZ L. destruct (rnd_near 53 1024 f64_prec (Z * Z) 1e-120) as (R1 & R2); [lra|rewrite Rabs_pos_eq; lra|].
      exists (rnd 53 1024 (Z * Z)). apply Rabs_le_inv in R2. split; [|split; [apply rnd_ge_fmt; [exact f64_prec|apply generic_format_0|lra]|lra]].
      apply (fl_mul 53 1024 f64_prec f64_emax gsin gcos _ _ _ _ FZ FZ). apply Rabs_lt. unfold FloatRound.big. lra. }
    destruct (M x X FX XX) as (p & P1 & P2). destruct (M y Y FY YY) as (q & Q1 & Q2). clear M.
    destruct (rnd_near 53 1024 f64_prec (p + q) 2.2e-120) as (R1 & R2); [lra|rewrite Rabs_pos_eq; lra|]. apply Rabs_le_inv in R2.
    assert (S0 : 0 <= rnd 53 1024 (p + q)) by (apply rnd_ge_fmt; [exact f64_prec|apply generic_format_0|lra]).
    assert (FS : flr (o_add (o_mul x x) (o_mul y y)) (rnd 53 1024 (p + q))).
    { apply (fl_add 53 1024 f64_prec f64_emax gsin gcos _ _ _ _ P1 Q1). apply Rabs_lt. unfold FloatRound.big. lra. }
    set (s := rnd 53 1024 (p + q)) in *. destruct (Req_dec s 0) as [Z|Z].
    + exists 0. split; [|split; [lra|intros; lra]]. rewrite Z in FS. destruct FS as (F1 & F2).
      destruct (o_add (o_mul x x) (o_mul y y)) as [b|b| |b m e BB]; try discriminate; [split; reflexivity|].
      exfalso. revert F2. cbn [B2R]. destruct b; [apply Rlt_not_eq, F2R_lt_0; reflexivity|apply Rgt_not_eq, F2R_gt_0; reflexivity].
    + pose proof (fl_sqrt 53 1024 f64_prec f64_emax gsin gcos _ _ FS ltac:(lra)) as FR.
      assert (SQ : sqrt s <= 2e-60) by (apply Rsqr_incr_0_var; [unfold Rsqr; rewrite sqrt_sqrt; lra|lra]). pose proof (sqrt_pos s) as SP.
      destruct (rnd_near 53 1024 f64_prec (sqrt s) 2e-60) as (R3 & R4); [lra|rewrite Rabs_pos_eq; lra|]. apply Rabs_le_inv in R4.
      exists (rnd 53 1024 (sqrt s)). split; [exact FR|]. split; [|intros; lra]. split; [apply rnd_ge_fmt; [exact f64_prec|apply generic_format_0|lra]|lra].
Qed.

(** ** Rotations *)
Lemma quot_f (x d : F) X D H sg g : flr x X -> flr d D -> flr g sg -> sg * sg = 1 -> 1e-60 <= H -> Rabs (D - H) <= 3e-16 * H -> Rabs X <= H ->
  near 6e-16 (o_div x (o_mul g d)) (X / (sg * H)) /\ Rabs (X / (sg * H)) <= 1.
Proof.
  intros FX FD FG S H1 DH LX. pose proof u64_le as U. pose proof (bpow_gt_0 radix2 (- (53))) as U0. pose proof tiny64_le as T. pose proof big64_ge as BG.
  assert (SA : Rabs sg = 1). { assert (Rabs sg * Rabs sg = 1) by (rewrite <- Rabs_mult, S; apply Rabs_R1). pose proof (Rabs_pos sg). nra. }
  assert (SN : sg <> 0) by (intros Z; rewrite Z in S; lra). pose proof (Rabs_le_inv _ _ DH) as DH'. assert (D0 : 0.99 * H <= D) by lra.
  assert (Q : Rabs (X / H) <= 1).
  { unfold Rdiv. rewrite Rabs_mult, (Rabs_pos_eq (/ H)) by (left; apply Rinv_0_lt_compat; lra). apply (Rmult_le_reg_r H); [lra|]. rewrite Rmult_assoc, Rinv_l by lra. lra. }
  assert (QD : Rabs (X / (sg * D)) <= 1.0001).
  { unfold Rdiv. rewrite Rabs_mult, Rabs_inv, Rabs_mult, SA, Rmult_1_l, (Rabs_pos_eq D) by lra. apply (Rmult_le_reg_r D); [lra|]. rewrite Rmult_assoc, Rinv_l by lra. lra. }
  pose proof (fl_sign_mul 53 1024 f64_prec f64_emax gsin gcos g d sg D FG FD S) as FP.
  destruct (div_err 53 1024 f64_prec f64_emax gsin gcos x (o_mul g d) X (sg * D) 1.0001 FX FP) as (r & R1 & R2 & _); [nra|lra|exact QD|lra|].
  assert (QH : Rabs (X / (sg * H)) <= 1).
  { replace (X / (sg * H)) with (sg * (X / H)); [rewrite Rabs_mult, SA; lra|]. replace sg with (sg * sg / sg) at 1 by (field; exact SN). rewrite S. field. split; [lra|exact SN]. }
  split; [|exact QH]. apply (fl_near _ _ _ _ R1).
  replace (r - X / (sg * H)) with ((r - X / (sg * D)) + (X / (sg * H) * ((H - D) / D))) by (field; repeat split; lra || exact SN).
  eapply Rle_trans; [apply Rabs_triang|]. rewrite Rabs_mult.
  assert (HD : Rabs ((H - D) / D) <= 3.1e-16).
  { unfold Rdiv. rewrite Rabs_mult, (Rabs_pos_eq (/ D)) by (left; apply Rinv_0_lt_compat; lra). apply (Rmult_le_reg_r D); [lra|]. rewrite Rmult_assoc, Rinv_l by lra. rewrite Rabs_minus_sym. lra. }
  assert (Rabs (X / (sg * H)) * Rabs ((H - D) / D) <= 1 * 3.1e-16) by (apply Rmult_le_compat; try apply Rabs_pos; assumption). nra.
Qed.
Lemma one_mul_fl (d : F) D : flr d D -> flr (o_mul o_one d) D.
Proof. intros FD. pose proof (fl_sign_mul 53 1024 f64_prec f64_emax gsin gcos _ d 1 D (fl_one' 53 1024 f64_prec f64_emax gsin gcos) FD ltac:(lra)) as H. now rewrite Rmult_1_l in H. Qed.
Lemma div_one (x d : F) X D : flr x X -> flr d D -> D <> 0 -> Rabs (X / D) <= 10 -> B2R (o_div x (o_mul o_one d)) = B2R (o_div x d) /\ is_finite (o_div x d) = true.
Proof.
  intros FX FD ND L. pose proof u64_le as U. pose proof (bpow_gt_0 radix2 (- (53))) as U0. pose proof tiny64_le as T. pose proof big64_ge as BG.
  destruct (rnd_near 53 1024 f64_prec (X / D) 10) as (_ & R2); [lra|exact L|].
  assert (BL : Rabs (rnd 53 1024 (X / D)) < FloatRound.big 1024) by (unfold FloatRound.big; nra).
  destruct (fl_div 53 1024 f64_prec f64_emax gsin gcos x d X D FX FD ND BL) as (A1 & A2).
  destruct (fl_div 53 1024 f64_prec f64_emax gsin gcos x _ X D FX (one_mul_fl d D FD) ND BL) as (_ & B2). split; [congruence|exact A1].
Qed.
Lemma quot1_f (x d : F) X D H : flr x X -> flr d D -> 1e-60 <= H -> Rabs (D - H) <= 3e-16 * H -> Rabs X <= H ->
  near 6e-16 (o_div x d) (X / H) /\ Rabs (X / H) <= 1.
Proof.
  intros FX FD H1 DH LX. destruct (quot_f x d X D H 1 o_one FX FD (fl_one' 53 1024 f64_prec f64_emax gsin gcos) ltac:(lra) H1 DH LX) as (N & B).
  rewrite Rmult_1_l in N, B. split; [|exact B]. pose proof (Rabs_le_inv _ _ DH) as DH'.
  destruct (div_one x d X D FX FD) as (E1 & E2); [lra| |].
  { unfold Rdiv. rewrite Rabs_mult, (Rabs_pos_eq (/ D)) by (left; apply Rinv_0_lt_compat; lra). apply (Rmult_le_reg_r D); [lra|]. rewrite Rmult_assoc, Rinv_l by lra. lra. }
  split; [exact E2|]. rewrite <- E1. apply N.
Qed.
Lemma abs_le_hyp X Y : Rabs X <= sqrt (X * X + Y * Y) /\ Rabs Y <= sqrt (X * X + Y * Y).
Proof.
  split; apply Rsqr_incr_0_var; try apply sqrt_pos; unfold Rsqr; rewrite sqrt_sqrt by nra; rewrite <- Rabs_mult, Rabs_pos_eq by nra; nra.
Qed.
Lemma cancel_y_f (x y : F) X Y : flr x X -> flr y Y -> Y <> 0 -> let H := sqrt (X * X + Y * Y) in 1e-60 <= H <= 100 ->
  exists c s n C S N, cancel_y (mkV2 x y) = Some (c, s, n) /\ C * C + S * S = 1 /\ C * X - S * Y = N /\ S * X + C * Y = 0 /\
    near 6e-16 c C /\ near 6e-16 s S /\ near (3e-16 * H) n N /\ Rabs C <= 1 /\ Rabs S <= 1 /\ Rabs N = H.
Proof.
  intros FX FY NY H HR. unfold cancel_y. cbn [px py].
  assert (E : o_eqb y o_zero = false).
  { apply not_true_iff_false. intros E. apply (fl_eqb 53 1024 f64_prec f64_emax gsin gcos _ _ _ _ FY (fl_zero' 53 1024 f64_prec f64_emax gsin gcos)) in E. contradiction. }
  rewrite E. cbn [negb]. destruct (to_exp_fl 53 1024 f64_prec f64_emax gsin gcos x X FX) as (m & g & sg & -> & FM & FG & S1 & S2).
  assert (HA : sqrt (Rabs X * Rabs X + Y * Y) = H) by (unfold H; f_equal; rewrite <- Rabs_mult, Rabs_pos_eq by nra; ring).
  destruct (hypot_f m y (Rabs X) Y FM FY) as (D & FD & _ & HD); [rewrite HA; lra|]. rewrite HA in HD. specialize (HD ltac:(lra)).
  destruct (abs_le_hyp X Y) as (LX & LY). fold H in LX, LY.
  destruct (quot1_f m _ (Rabs X) D H FM FD ltac:(lra) HD) as (NC & BC); [rewrite Rabs_Rabsolu; exact LX|].
  destruct (quot_f (o_neg y) _ (- Y) D H sg g (fl_neg 53 1024 f64_prec f64_emax gsin gcos _ _ FY) FD FG S1 ltac:(lra) HD) as (NS & BS); [now rewrite Rabs_Ropp|].
  assert (SA : Rabs sg = 1). { assert (Rabs sg * Rabs sg = 1) by (rewrite <- Rabs_mult, S1; apply Rabs_R1). pose proof (Rabs_pos sg). nra. }
  assert (SN : sg <> 0) by (intros Z; rewrite Z in S1; lra).
  assert (HH : H * H = X * X + Y * Y) by (apply sqrt_sqrt; nra).
  assert (IS : / sg = sg) by (apply (Rmult_eq_reg_l sg); [rewrite Rinv_r by exact SN; lra|exact SN]).
  assert (ES : - Y / (sg * H) = - Y * sg / H) by (unfold Rdiv; rewrite Rinv_mult, IS; ring).
  exists (o_div m (o_sqrt (o_add (o_mul m m) (o_mul y y)))), (o_div (o_neg y) (o_mul g (o_sqrt (o_add (o_mul m m) (o_mul y y))))), (o_mul g (o_sqrt (o_add (o_mul m m) (o_mul y y)))).
  exists (Rabs X / H), (- Y / (sg * H)), (sg * H). split; [reflexivity|].
  assert (XA : Rabs X = sg * X) by (now rewrite S2). split; [|split; [|split; [|split; [exact NC|split; [exact NS|split; [|split; [exact BC|split; [exact BS|]]]]]]]].
  - rewrite ES, XA. replace (sg * X / H * (sg * X / H) + - Y * sg / H * (- Y * sg / H)) with (sg * sg * (X * X + Y * Y) / (H * H)) by (field; lra). rewrite S1, <- HH. field. lra.
  - rewrite ES, XA. replace (sg * X / H * X - - Y * sg / H * Y) with (sg * (X * X + Y * Y) / H) by (field; lra). rewrite <- HH. field. lra.
  - rewrite ES, XA. field. lra.
  - apply (fl_near _ _ (sg * D) _ (fl_sign_mul 53 1024 f64_prec f64_emax gsin gcos _ _ _ _ FG FD S1)). replace (sg * D - sg * H) with (sg * (D - H)) by ring. rewrite Rabs_mult, SA. lra.
  - rewrite Rabs_mult, SA, Rabs_pos_eq by lra. ring.
Qed.
Lemma givens_f (x y eps : F) X Y e : flr x X -> flr y Y -> flr eps e -> 1e-50 <= e -> let H := sqrt (X * X + Y * Y) in H <= 100 ->
  (givens_try_new x y eps = None /\ H <= 1.001 * e) \/
  exists c s C S, givens_try_new x y eps = Some (c, s) /\ C * C + S * S = 1 /\ C * Y = S * X /\ 0.98 * e <= H /\
    near 6e-16 c C /\ near 6e-16 s S /\ Rabs C <= 1 /\ Rabs S <= 1 /\ C * C * (H * H) = X * X /\ S * S * (H * H) = Y * Y.
Proof.
  intros FX FY FE E0 H HR. unfold givens_try_new.
  destruct (to_exp_fl 53 1024 f64_prec f64_emax gsin gcos x X FX) as (m & g & sg & -> & FM & FG & S1 & S2).
  assert (HA : sqrt (Rabs X * Rabs X + Y * Y) = H) by (unfold H; f_equal; rewrite <- Rabs_mult, Rabs_pos_eq by nra; ring).
  destruct (hypot_f m y (Rabs X) Y FM FY) as (D & FD & UD & HD); [rewrite HA; lra|]. rewrite HA in HD, UD.
  pose proof (fl_ltb 53 1024 f64_prec f64_emax gsin gcos _ _ _ _ FE FD) as LT. cbv zeta.
  destruct (o_ltb eps (o_sqrt (o_add (o_mul m m) (o_mul y y)))).
  - right. assert (ED : e < D) by now apply LT. assert (H1 : 1e-60 <= H) by lra. specialize (HD H1).
    destruct (abs_le_hyp X Y) as (LX & LY). fold H in LX, LY.
    destruct (quot1_f m _ (Rabs X) D H FM FD H1 HD) as (NC & BC); [rewrite Rabs_Rabsolu; exact LX|].
    destruct (quot_f y _ Y D H sg g FY FD FG S1 H1 HD LY) as (NS & BS).
    assert (SN : sg <> 0) by (intros Z; rewrite Z in S1; lra).
    assert (HH : H * H = X * X + Y * Y) by (apply sqrt_sqrt; nra).
    assert (IS : / sg = sg) by (apply (Rmult_eq_reg_l sg); [rewrite Rinv_r by exact SN; lra|exact SN]).
    assert (ES : Y / (sg * H) = Y * sg / H) by (unfold Rdiv; rewrite Rinv_mult, IS; ring).
    do 2 eexists. exists (Rabs X / H), (Y / (sg * H)). split; [reflexivity|].
    assert (XA : Rabs X = sg * X) by (now rewrite S2). split; [|split; [|split; [|split; [exact NC|split; [exact NS|split; [exact BC|split; [exact BS|split]]]]]]].
    + rewrite ES, XA. replace (sg * X / H * (sg * X / H) + Y * sg / H * (Y * sg / H)) with (sg * sg * (X * X + Y * Y) / (H * H)) by (field; lra). rewrite S1, <- HH. field. lra.
    + rewrite ES, XA. field. lra.
    + apply Rabs_le_inv in HD. lra.
    + rewrite XA. replace (sg * X / H * (sg * X / H) * (H * H)) with (sg * sg * (X * X)) by (field; lra). rewrite S1. ring.
    + rewrite ES. replace (Y * sg / H * (Y * sg / H) * (H * H)) with (sg * sg * (Y * Y)) by (field; lra). rewrite S1. ring.
  - left. split; [reflexivity|]. assert (ED : D <= e) by (apply Rnot_lt_le; intros Z; apply LT in Z; discriminate).
    destruct (Rle_lt_dec 1e-60 H) as [G|G]; [|lra]. specialize (HD G). apply Rabs_le_inv in HD. lra.
Qed.
End F64.
