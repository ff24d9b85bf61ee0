(** * FloatQRProofs.v - rounding error of one Householder step of nalgebra's QR (C108) *)

From Coq Require Import ZArith Reals List Bool Lra Lia Psatz.
From Flocq Require Import Core BinarySingleNaN.
From Verif Require Import Scalar Linalg Householder Spec SpecFloatErr RealBase VecLemmas FloatBase FloatRound FloatErrProofs FloatApprox FloatRigidProofs
  FloatDirProofs FloatViewProofs QRProofs JacProofs.
Import ListNotations.
Local Open Scope R_scope.

Section QR.
Variables (prec emax : Z) (Hp : Prec_gt_0 prec) (He : Prec_lt_emax prec emax).
Variables fsin fcos : binary_float prec emax -> binary_float prec emax.
Local Notation F := (binary_float prec emax).
Local Hint Extern 0 (Ops (binary_float prec emax)) =>
  exact (B_ops prec emax Hp He fsin fcos) : typeclass_instances.
Local Notation u := (bpow radix2 (- prec)).
Local Notation big := (bpow radix2 emax).
Local Notation tiny := (bpow radix2 (2 - emax)).
Local Notation flr := (fl prec emax).
Hypotheses (P14 : (14 <= prec)%Z) (E17 : (17 <= emax)%Z).
Local Notation tiny1 := (tiny_le_1 emax E17).
Local Notation u14 := (u14 prec P14).
Local Notation u0 := (u0 prec).
Local Notation app := (app prec emax u).

(** ** Sums, roots and quotients in the calculus of errors, with the size given *)
Lemma app_add_w x y a b W1 W2 W k1 k2 K k' : app x a W1 k1 -> app y b W2 k2 -> Rabs (a + b) <= W ->
  k1 * W1 + k2 * W2 <= K * W -> 0 <= K <= 1000 -> K + 1 + K / 2048 <= k' -> tiny <= W -> 4 * W < big -> app (o_add x y) (a + b) W k'.
Proof.
  intros (r1 & X & D1 & L1) (r2 & Y & D2 & L2) L KW K0 K' T B. pose proof u0 as U0. pose proof u14 as U1.
  assert (W0 : 0 < W) by (apply Rlt_le_trans with (2 := T), bpow_gt_0).
  assert (DD : Rabs (r1 + r2 - (a + b)) <= K * u * W).
  { replace (r1 + r2 - (a + b)) with ((r1 - a) + (r2 - b)) by ring. eapply Rle_trans; [apply tri; eassumption|].
    replace (k1 * u * W1 + k2 * u * W2) with (u * (k1 * W1 + k2 * W2)) by ring. replace (K * u * W) with (u * (K * W)) by ring. apply Rmult_le_compat_l; lra. }
  assert (KU : 0 <= K * u <= K / 2048) by (split; [apply Rmult_le_pos; lra|unfold Rdiv; apply Rmult_le_compat_l; lra]).
  assert (KU' : K * u <= 1000 / 16384) by (apply Rle_trans with (1000 * u); [apply Rmult_le_compat_r; lra|lra]).
  assert (LL : Rabs (r1 + r2) <= (1 + K * u) * W).
  { replace (r1 + r2) with ((r1 + r2 - (a + b)) + (a + b)) by ring. eapply Rle_trans; [apply tri; eassumption|]. lra. }
  destruct (add_err prec emax Hp He fsin fcos x y r1 r2 ((1 + K * u) * W) X Y) as (r & R & E & _); [nra|exact LL| |].
  { rewrite <- Rmult_assoc. apply Rle_lt_trans with (2 * W); [|lra]. apply Rmult_le_compat_r; [lra|]. set (t := K * u) in *. clearbody t. nra. }
  exists r. split; [exact R|]. split; [|exact L].
  replace (r - (a + b)) with ((r - (r1 + r2)) + (r1 + r2 - (a + b))) by ring. eapply Rle_trans; [apply tri; eassumption|].
  replace (u * ((1 + K * u) * W) + K * u * W) with ((K + 1 + K * u) * (u * W)) by ring. rewrite (Rmult_assoc k').
  apply Rmult_le_compat_r; [nra|lra].
Qed.
Lemma app_sqrt x a k : app x (a * a) (a * a) k -> 0 <= k <= 100 -> tiny <= a -> 4 * a < big -> app (o_sqrt x) a a (0.51 * k + 1.01).
Proof.
  intros (r & X & D & _) K T B. pose proof u0 as U0. pose proof u14 as U1.
  assert (A0 : 0 < a) by (apply Rlt_le_trans with (2 := T), bpow_gt_0).
  assert (KU : 0 <= k * u <= 100 / 16384) by (split; [apply Rmult_le_pos; lra|apply Rle_trans with (100 * u); [apply Rmult_le_compat_r; lra|lra]]).
  assert (AA : 0 < a * a) by nra. assert (LO : 0.99 * (a * a) <= r) by (apply Rabs_le_inv in D; nra).
  assert (S0 : 0.99 * a <= sqrt r).
  { apply Rsqr_incr_0_var; [|apply sqrt_pos]. unfold Rsqr. rewrite sqrt_sqrt by lra. nra. }
  assert (Q : (sqrt r - a) * (sqrt r + a) = r - a * a) by (replace ((sqrt r - a) * (sqrt r + a)) with (sqrt r * sqrt r - a * a) by ring; rewrite sqrt_sqrt; lra).
  assert (DS : Rabs (sqrt r - a) <= 0.505 * (k * u) * a).
  { apply (Rmult_le_reg_r (1.99 * a)); [lra|]. apply Rle_trans with (Rabs (sqrt r - a) * Rabs (sqrt r + a)).
    - apply Rmult_le_compat_l; [apply Rabs_pos|]. rewrite Rabs_pos_eq; lra.
    - rewrite <- Rabs_mult, Q. eapply Rle_trans; [exact D|]. replace (0.505 * (k * u) * a * (1.99 * a)) with (1.00495 * (k * u * (a * a))) by lra.
      assert (0 <= k * u * (a * a)) by (apply Rmult_le_pos; lra). lra. }
  pose proof (fl_sqrt prec emax Hp He fsin fcos x r X ltac:(lra)) as FS.
  assert (SR : Rabs (sqrt r) <= 1.004 * a).
  { rewrite Rabs_pos_eq by apply sqrt_pos. apply Rabs_le_inv in DS. assert (0.505 * (k * u) * a <= 0.0031 * a) by (apply Rmult_le_compat_r; [lra|set (t := k * u) in *; clearbody t; lra]). lra. }
  pose proof (rnd_err prec emax Hp (sqrt r) (1.004 * a) ltac:(lra) SR) as RE.
  exists (rnd prec emax (sqrt r)). split; [exact FS|]. split; [|rewrite Rabs_pos_eq; lra].
  replace (rnd prec emax (sqrt r) - a) with ((rnd prec emax (sqrt r) - sqrt r) + (sqrt r - a)) by ring.
  eapply Rle_trans; [apply tri; eassumption|]. assert (0 < u * a) by (apply Rmult_lt_0_compat; lra). assert (0 <= k * (u * a)) by (apply Rmult_le_pos; lra). nra.
Qed.
Lemma app_div x y a b W k1 k2 : app x a W k1 -> app y b b k2 -> 0 <= k1 <= 100 -> 0 <= k2 <= 100 -> 0 < b -> tiny <= W / b -> 4 * (W / b) < big ->
  app (o_div x y) (a / b) (W / b) (1.01 * k1 + 1.01 * k2 + 1.02).
Proof.
  intros (p & X & D1 & L1) (q & Y & D2 & _) K1 K2 B0 T B. pose proof u0 as U0. pose proof u14 as U1.
  assert (KU1 : 0 <= k1 * u <= 100 / 16384) by (split; [apply Rmult_le_pos; lra|apply Rle_trans with (100 * u); [apply Rmult_le_compat_r; lra|lra]]).
  assert (KU2 : 0 <= k2 * u <= 100 / 16384) by (split; [apply Rmult_le_pos; lra|apply Rle_trans with (100 * u); [apply Rmult_le_compat_r; lra|lra]]).
  assert (QL : 0.9935 * b <= q) by (apply Rabs_le_inv in D2; assert (k2 * u * b <= 100 / 16384 * b) by (apply Rmult_le_compat_r; lra); lra).
  assert (Q0 : 0 < q) by lra. assert (W0 : 0 <= W) by (pose proof (Rabs_pos a); lra).
  set (V := W / b) in *. assert (WV : W = V * b) by (unfold V; field; lra). assert (V0 : 0 <= V) by (unfold V; apply Rmult_le_pos; [lra|left; now apply Rinv_0_lt_compat]).
  assert (AV : Rabs (a / b) <= V).
  { unfold Rdiv. rewrite Rabs_mult, (Rabs_pos_eq (/ b)) by (left; now apply Rinv_0_lt_compat). unfold V, Rdiv. apply Rmult_le_compat_r; [left; now apply Rinv_0_lt_compat|exact L1]. }
  assert (DQ : Rabs (p / q - a / b) <= 1.007 * ((k1 + k2) * u) * V).
  { replace (p / q - a / b) with (((p - a) + a / b * - (q - b)) / q) by (field; lra).
    unfold Rdiv at 1. rewrite Rabs_mult, (Rabs_pos_eq (/ q)) by (left; now apply Rinv_0_lt_compat).
    apply (Rmult_le_reg_r q); [exact Q0|]. rewrite Rmult_assoc, Rinv_l, Rmult_1_r by lra.
    eapply Rle_trans; [apply tri; [exact D1|rewrite Rabs_mult, Rabs_Ropp; apply Rmult_le_compat; [apply Rabs_pos|apply Rabs_pos|exact AV|exact D2]]|].
    rewrite WV. replace (k1 * u * (V * b) + V * (k2 * u * b)) with ((k1 + k2) * u * V * b) by ring.
    replace (1.007 * ((k1 + k2) * u) * V * q) with ((k1 + k2) * u * V * (1.007 * q)) by ring. apply Rmult_le_compat_l; [|lra].
    apply Rmult_le_pos; [apply Rmult_le_pos; lra|exact V0]. }
  assert (LQ : Rabs (p / q) <= 1.013 * V).
  { replace (p / q) with ((p / q - a / b) + a / b) by ring. eapply Rle_trans; [apply tri; eassumption|].
    assert (1.007 * ((k1 + k2) * u) * V <= 0.013 * V) by (apply Rmult_le_compat_r; lra). lra. }
  destruct (div_err prec emax Hp He fsin fcos x y p q (1.013 * V) X Y) as (r & R & E & _); [lra|lra|exact LQ|nra|].
  exists r. split; [exact R|]. split; [|exact AV]. replace (r - a / b) with ((r - p / q) + (p / q - a / b)) by ring.
  eapply Rle_trans; [apply tri; eassumption|]. assert (0 <= u * V) by (apply Rmult_le_pos; lra).
  assert (0 <= k1 * (u * V)) by (apply Rmult_le_pos; lra). assert (0 <= k2 * (u * V)) by (apply Rmult_le_pos; lra). nra.
Qed.

(** ** Columns of at most three floats *)
Definition e_ (l : list F) (i : nat) : R := B2R (nth i l o_zero).
Definition pad (l : list F) : V3 R := mkV3 (e_ l 0) (e_ l 1) (e_ l 2).
Definition lfin (l : list F) : Prop := Forall (fun x : F => is_finite x = true) l.
Lemma nth_fin l i : lfin l -> flr (nth i l o_zero) (e_ l i).
Proof.
  intros H. split; [|reflexivity]. destruct (Nat.lt_ge_cases i (length l)).
  - unfold lfin in H. rewrite Forall_forall in H. apply H. now apply nth_In.
  - rewrite nth_overflow by assumption. reflexivity.
Qed.
Lemma pad_le l i : Rabs (e_ l i) <= vlen (pad l) \/ (3 <= i)%nat.
Proof.
  destruct (comp_le (pad l)) as (A & B & C). destruct i as [|[|[|i]]]; cbn [pad vx vy vz] in *; [left..|right]; try assumption. lia.
Qed.

(** the dot product *)
Lemma ldot_app a b W : length a = length b -> (1 <= length a <= 3)%nat -> lfin a -> lfin b -> vlen (pad a) * vlen (pad b) <= W -> tiny <= W -> 8 * W < big ->
  app (ldot a b) (vdot (pad a) (pad b)) W 5.1.
Proof.
  intros L3 L Fa Fb AB T B. assert (W0 : 0 < W) by (apply Rlt_le_trans with (2 := T), bpow_gt_0). pose proof u0 as U0. pose proof u14 as U1.
  assert (PR : forall i, (i < 3)%nat -> app (o_mul (nth i a o_zero) (nth i b o_zero)) (e_ a i * e_ b i) W 1).
  { intros i Hi. pose proof (nth_fin a i Fa) as X. pose proof (nth_fin b i Fb) as Y. destruct (pad_le a i) as [PA|]; [|lia]. destruct (pad_le b i) as [PB|]; [|lia].
    assert (LW : Rabs (e_ a i * e_ b i) <= W) by (rewrite Rabs_mult; eapply Rle_trans; [|exact AB]; apply Rmult_le_compat; try apply Rabs_pos; assumption).
    destruct (mul_err prec emax Hp He fsin fcos _ _ _ _ W X Y T LW) as (r & R & D & _); [nra|]. exists r. split; [exact R|]. split; [lra|exact LW]. }
  (* partial sums are bounded as well *)
  assert (PS : Rabs (e_ a 0 * e_ b 0 + e_ a 1 * e_ b 1) <= W).
  { pose proof (cauchy_schwarz (mkV3 (e_ a 0) (e_ a 1) 0) (mkV3 (e_ b 0) (e_ b 1) 0)) as C.
    eapply Rle_trans; [|eapply Rle_trans; [exact C|eapply Rle_trans; [|exact AB]]].
    - right. f_equal. unfold vdot. cbn [vx vy vz]. ring.
    - apply Rmult_le_compat; try apply vlen_nonneg; apply sqrt_le_1_alt; unfold pad, vdot; cbn [vx vy vz]; nra. }
  assert (PT : Rabs (e_ a 0 * e_ b 0 + e_ a 1 * e_ b 1 + e_ a 2 * e_ b 2) <= W).
  { eapply Rle_trans; [|exact AB]. apply (cauchy_schwarz (pad a) (pad b)). }
  pose proof (PR 0%nat ltac:(lia)) as P0. pose proof (PR 1%nat ltac:(lia)) as P1. pose proof (PR 2%nat ltac:(lia)) as P2. clear PR.
  assert (Z : flr o_zero 0) by apply (fl_zero' prec emax Hp He fsin fcos).
  assert (Q0 : app (o_add o_zero (o_mul (nth 0 a o_zero) (nth 0 b o_zero))) (e_ a 0 * e_ b 0) W 1).
  { destruct P0 as (r & R & D & LL). exists r. split; [now apply (add_0_l prec emax Hp He fsin fcos)|]. split; assumption. }
  assert (Q1 : app (o_add (o_add o_zero (o_mul (nth 0 a o_zero) (nth 0 b o_zero))) (o_mul (nth 1 a o_zero) (nth 1 b o_zero))) (e_ a 0 * e_ b 0 + e_ a 1 * e_ b 1) W 3.01).
  { eapply app_add_w with (K := 2); [exact Q0|exact P1|exact PS|lra..]. }
  assert (Q2 : app (o_add (o_add (o_add o_zero (o_mul (nth 0 a o_zero) (nth 0 b o_zero))) (o_mul (nth 1 a o_zero) (nth 1 b o_zero))) (o_mul (nth 2 a o_zero) (nth 2 b o_zero)))
    (e_ a 0 * e_ b 0 + e_ a 1 * e_ b 1 + e_ a 2 * e_ b 2) W 5.1).
  { eapply app_add_w with (K := 4.01); [exact Q1|exact P2|exact PT|lra..]. }
  destruct a as [|a0 [|a1 [|a2 [|a3 a4]]]], b as [|b0 [|b1 [|b2 [|b3 b4]]]]; cbn [length] in L3, L; try lia; unfold ldot, dot_acc; unfold pad, vdot, e_ in *; cbn [nth vx vy vz] in *.
  - change (B2R (o_zero : F)) with 0 in *. apply app_eq with (a := B2R a0 * B2R b0); [|ring]. apply (app_grow prec emax u (Rle_refl _) _ _ W 1); try lra. exact Q0.
  - change (B2R (o_zero : F)) with 0 in *. apply app_eq with (a := B2R a0 * B2R b0 + B2R a1 * B2R b1); [|ring]. apply (app_grow prec emax u (Rle_refl _) _ _ W 3.01); try lra. exact Q1.
  - exact Q2.
Qed.

(** ** The reflection axis *)
Lemma e_map (f : F -> F) (l : list F) i : (i < length l)%nat -> nth i (map f l) o_zero = f (nth i l (o_zero : F)).
Proof. intros H. rewrite (nth_indep _ o_zero (f o_zero)) by (now rewrite map_length). apply map_nth. Qed.
Lemma e_out l i : (length l <= i)%nat -> e_ l i = 0.
Proof. intros H. unfold e_. now rewrite nth_overflow. Qed.
Definition hz (X : V3 R) (s : R) : V3 R := mkV3 (vx X + s * vlen X) (vy X) (vz X).
Lemma hz_real X s : 0 < vlen X -> s * s = 1 -> s * vx X = Rabs (vx X) -> let z := hz X s in
  vdot z z = 2 * (vlen X * vlen X + Rabs (vx X) * vlen X) /\ vlen X <= vlen z /\ vlen z <= 2 * vlen X /\ vlen X * vlen X <= vlen z * vlen z / 2 /\
  vdot (vunit z) (vunit z) = 1 /\ vscl (- s) (vsub X (vscl (2 * vdot (vunit z) X) (vunit z))) = mkV3 (vlen X) 0 0.
Proof.
  intros L S1 S2 z. set (n := vlen X) in *. assert (NN : n * n = vdot X X) by apply vlen_sq.
  destruct (comp_le X) as (CX & _). fold n in CX. pose proof (Rabs_pos (vx X)) as AP. set (m := Rabs (vx X)) in *.
  assert (ZZ : vdot z z = 2 * (n * n + m * n)).
  { unfold z, hz. fold n. replace (2 * (n * n + m * n)) with (n * n + 2 * (s * vx X) * n + n * n) by (rewrite S2; ring).
    rewrite NN at 1. unfold vdot. cbn [vx vy vz]. replace (n * n) with (s * s * (n * n)) by (rewrite S1; ring). ring. }
  assert (ZX : vdot z X = n * n + m * n).
  { unfold z, hz. fold n. rewrite NN, <- S2. unfold vdot. cbn [vx vy vz]. ring. }
  assert (Z0 : 0 < vdot z z) by (rewrite ZZ; nra).
  assert (ZN : z <> vO) by (intros H; rewrite H in Z0; unfold vdot, vO in Z0; cbn [vx vy vz] in Z0; lra).
  pose proof (vlen_pos z ZN) as LZ. pose proof (vlen_sq z) as LZZ. rewrite ZZ in LZZ. set (l := vlen z) in *.
  split; [exact ZZ|]. split; [nra|]. split; [nra|]. split; [rewrite LZZ; nra|]. split; [now apply vunit_dot|].
  unfold vunit. fold l. rewrite vdot_vscl_l, ZX.
  assert (K : 2 * (/ l * (n * n + m * n)) = l) by (apply (Rmult_eq_reg_l l); [|lra]; rewrite LZZ; field; lra).
  clear ZZ ZX Z0. clearbody l. unfold z, hz. fold n. destruct X as [x y t]. cbn [vx vy vz] in *.
  assert (IL : / l * l = 1) by (field; lra).
  rewrite K.
  unfold vscl, vsub, vdot. cbn [vx vy vz]. 
  apply V3_eq; cbn [vx vy vz].
  - replace (- s * (x - l * (/ l * (x + s * n)))) with (- s * (x - (/ l * l) * (x + s * n))) by ring. rewrite IL.
    replace (- s * (x - 1 * (x + s * n))) with (s * s * n) by ring. rewrite S1. ring.
  - replace (- s * (y - l * (/ l * y))) with (- s * (y - (/ l * l) * y)) by ring. rewrite IL. ring.
  - replace (- s * (t - l * (/ l * t))) with (- s * (t - (/ l * l) * t)) by ring. rewrite IL. ring.
Qed.
Lemma fl_signum (x : F) r : flr x r -> r <> 0 -> exists s, flr (o_signum x) s /\ s * s = 1 /\ s * r = Rabs r.
Proof.
  intros (X1 & X2) N. cbn [o_signum B_ops]. destruct x as [b|b| |b m e B]; try discriminate; [cbn in X2; congruence|]. cbn [is_nan Bsign].
  pose proof (fl_one' prec emax Hp He fsin fcos) as O. change (flr Bone 1) in O. cbn [B2R] in X2.
  destruct b.
  - exists (- (1)). split; [apply (fl_neg prec emax Hp He fsin fcos _ _ O)|]. split; [ring|].
    assert (r < 0) by (rewrite <- X2; apply F2R_lt_0; reflexivity). rewrite Rabs_left; lra.
  - exists 1. split; [exact O|]. split; [ring|]. assert (0 < r) by (rewrite <- X2; apply F2R_gt_0; reflexivity). rewrite Rabs_pos_eq; lra.
Qed.
Lemma fl_sign_mul x y s r : flr x s -> flr y r -> s * s = 1 -> flr (o_mul x y) (s * r).
Proof.
  intros X Y S. assert (C : s = 1 \/ s = -1) by (assert (Q : (s - 1) * (s + 1) = 0) by lra; apply Rmult_integral in Q; destruct Q; [left|right]; lra).
  pose proof (fl_fmt _ _ _ _ Y) as FY. pose proof (fl_lt_big _ _ _ _ Y) as BY.
  assert (I : rnd prec emax (s * r) = s * r).
  { apply rnd_id; try exact Hp. destruct C as [->| ->]; [now rewrite Rmult_1_l|]. replace (-1 * r) with (- r) by ring. now apply fmt_opp. }
  assert (B : Rabs (s * r) < FloatRound.big emax) by (rewrite Rabs_mult; destruct C as [->| ->]; [rewrite Rabs_R1|replace (Rabs (-1)) with 1 by (rewrite Rabs_left; lra)]; now rewrite Rmult_1_l).
  pose proof (fl_mul prec emax Hp He fsin fcos _ _ _ _ X Y) as H. rewrite I in H. now apply H.
Qed.
Lemma to_exp_fl (x : F) r : flr x r -> exists m g s, to_exp x = (m, g) /\ flr m (Rabs r) /\ flr g s /\ s * s = 1 /\ s * r = Rabs r.
Proof.
  intros X. unfold to_exp. pose proof (fl_one' prec emax Hp He fsin fcos) as O. pose proof (fl_zero' prec emax Hp He fsin fcos) as Z.
  pose proof (fl_leb prec emax Hp He fsin fcos _ _ _ _ Z X) as L. destruct (o_leb o_zero x).
  - assert (0 <= r) by now apply L. exists x, o_one, 1. rewrite Rabs_pos_eq by lra. repeat split; try apply X; try apply O; ring.
  - assert (r < 0) by (apply Rnot_le_lt; intros H; apply L in H; discriminate). exists (o_neg x), (o_neg o_one), (- (1)).
    split; [reflexivity|]. rewrite Rabs_left by lra. split; [now apply (fl_neg prec emax Hp He fsin fcos)|]. split; [now apply (fl_neg prec emax Hp He fsin fcos)|]. split; ring.
Qed.
Lemma app_fl x r W : flr x r -> Rabs r <= W -> app x r W 0.
Proof. apply app_exact. Qed.
Lemma pad_comps l w e : (forall i, (i < 3)%nat -> Rabs (e_ l i - match i with 0%nat => vx w | 1%nat => vy w | _ => vz w end) <= e) -> vdist (pad l) w <= 1.7321 * e.
Proof. intros H. apply comps_dist; cbn [pad vx vy vz]; [apply (H 0%nat)|apply (H 1%nat)|apply (H 2%nat)]; lia. Qed.
Lemma app_lfin (l : list F) : (forall i, (i < length l)%nat -> exists a W k, app (nth i l o_zero) a W k) -> lfin l.
Proof.
  intros H. apply Forall_forall. intros x X. destruct (In_nth l x o_zero X) as (i & Hi & <-). destruct (H i Hi) as (a & W & k & r & (R & _) & _). exact R.
Qed.
Definition comp (w : V3 R) (i : nat) : R := match i with 0%nat => vx w | 1%nat => vy w | _ => vz w end.
Lemma unit_comp w i : vdot w w = 1 -> Rabs (comp w i) <= 1.
Proof.
  intros H. assert (L : vlen w = 1) by (unfold vlen; rewrite H; apply sqrt_1). destruct (comp_le w) as (A & B & C). rewrite L in *.
  destruct i as [|[|i]]; assumption.
Qed.
Lemma vunit_comp z i : comp (vunit z) i = comp z i / vlen z.
Proof. destruct i as [|[|i]]; unfold vunit, vscl, Rdiv; cbn [comp vx vy vz]; ring. Qed.

Lemma axis_app (x : list F) E : (1 <= length x <= 3)%nat -> lfin x -> (0 <= E)%Z -> (2 * E + 6 <= emax)%Z ->
  bpow radix2 (- E) <= vlen (pad x) <= bpow radix2 E ->
  exists axis d s w, reflection_axis_mut x = (axis, d, true) /\ length axis = length x /\ lfin axis /\ vdist (pad axis) w <= 71 * u /\
    vdot w w = 1 /\ s * s = 1 /\ flr (o_signum d) s /\
    vscl s (vsub (pad x) (vscl (2 * vdot w (pad x)) w)) = mkV3 (vlen (pad x)) 0 0 /\ app (o_abs d) (vlen (pad x)) (vlen (pad x)) 4 /\
    (forall i, (length x <= i <= 2)%nat -> comp w i = 0).
Proof.
  intros LX FX E0 E2 LV. pose proof u0 as U0. pose proof u14 as U1. set (n := vlen (pad x)) in *.
  assert (N0 : 0 < n) by (pose proof (bpow_gt_0 radix2 (- E)); lra).
  assert (TB : bpow radix2 (- E) * bpow radix2 (- E) = bpow radix2 (- E - E)) by (rewrite <- bpow_plus; f_equal; lia).
  assert (BB : bpow radix2 E * bpow radix2 E = bpow radix2 (E + E)) by (rewrite <- bpow_plus; f_equal; lia).
  assert (T2 : tiny <= bpow radix2 (- E - E)) by (apply bpow_le; lia).
  assert (T1 : tiny <= bpow radix2 (- E)) by (apply bpow_le; lia).
  assert (B2 : 64 * bpow radix2 (E + E) <= big).
  { change 64 with (bpow radix2 6). rewrite <- bpow_plus. apply bpow_le. lia. }
  assert (B1 : 64 * bpow radix2 E <= big).
  { change 64 with (bpow radix2 6). rewrite <- bpow_plus. apply bpow_le. lia. }
  pose proof (bpow_gt_0 radix2 (- E)) as PE.
  assert (NN1 : tiny <= n * n) by (eapply Rle_trans; [exact T2|]; rewrite <- TB; apply Rmult_le_compat; lra).
  assert (NN2 : 64 * (n * n) <= big) by (eapply Rle_trans; [|exact B2]; rewrite <- BB; apply Rmult_le_compat_l; [lra|]; apply Rmult_le_compat; lra).
  assert (N1 : tiny <= n) by lra. assert (N2 : 64 * n <= big) by lra. assert (N3 : 0 < n * n) by nra.
  clear TB BB T1 T2 B1 B2.
  pose proof (ldot_app x x (n * n) eq_refl LX FX FX (Rle_refl _) NN1 ltac:(lra)) as SQ.
  replace (vdot (pad x) (pad x)) with (n * n) in SQ by apply vlen_sq.
  pose proof (app_sqrt _ n 5.1 SQ ltac:(lra) N1 ltac:(lra)) as NO.
  destruct x as [|c0 rest]; [cbn in LX; lia|]. unfold reflection_axis_mut. cbv zeta.
  set (sq := ldot (c0 :: rest) (c0 :: rest)) in *. clearbody sq.
  pose proof (nth_fin (c0 :: rest) 0 FX) as X0. cbn [nth] in X0. set (x0 := e_ (c0 :: rest) 0) in *.
  destruct (to_exp_fl c0 x0 X0) as (m & g & s & -> & FM & FG & S1 & S2).
  destruct (comp_le (pad (c0 :: rest))) as (C0 & C1 & C2). cbn [pad vx vy vz] in C0, C1, C2. fold n x0 in C0, C1, C2.
  destruct (hz_real (pad (c0 :: rest)) s) as (ZZ & Z1 & Z2 & Z3 & ZU & ZR); [exact N0|exact S1|exact S2|].
  fold n in ZZ, Z1, Z2, Z3, ZR. cbn [pad vx] in ZZ. fold x0 in ZZ. set (z := hz (pad (c0 :: rest)) s) in *. set (l := vlen z) in *.
  assert (LL : l * l = vdot z z) by apply vlen_sq.
  (* the norm, with its sign *)
  assert (NO' : app (o_sqrt sq) n n 3.62) by (apply (app_grow prec emax u (Rle_refl _) _ _ n (0.51 * 5.1 + 1.01)); [exact NO|lra|lra]).
  set (nf := o_sqrt sq) in *. clearbody nf. clear NO.
  assert (SN : app (o_mul g nf) (s * n) n 3.62 /\ exists r, flr (o_mul g nf) (s * r) /\ flr nf r).
  { destruct NO' as (r & R & D & _). split; [exists (s * r)|exists r; split; [now apply fl_sign_mul|exact R]]. split; [now apply fl_sign_mul|].
    assert (SA : Rabs s = 1). { assert (Rabs s * Rabs s = 1) by (rewrite <- Rabs_mult, S1; apply Rabs_R1). pose proof (Rabs_pos s). nra. }
    replace (s * r - s * n) with (s * (r - n)) by ring. rewrite !Rabs_mult, SA, !Rmult_1_l. split; [exact D|rewrite Rabs_pos_eq; lra]. }
  destruct SN as (SN & rn & FSN & FNF).
  (* the factor *)
  assert (MN : app (o_mul m nf) (Rabs x0 * n) (n * n) 4.63).
  { apply (app_mul prec emax Hp He fsin fcos u (Rle_refl _) ltac:(lra) m nf (Rabs x0) n n n 0 3.62); try assumption; try lra. apply app_fl; [exact FM|now rewrite Rabs_Rabsolu]. }
  assert (LH : l * l / 2 = n * n + Rabs x0 * n) by (rewrite LL, ZZ; field).
  pose proof (Rabs_pos x0) as A0. assert (XN : 0 <= Rabs x0 * n <= n * n) by (split; [apply Rmult_le_pos; lra|apply Rmult_le_compat_r; lra]).
  assert (SU : app (o_add sq (o_mul m nf)) (l * l / 2) (l * l / 2) 10.75).
  { rewrite LH at 1. eapply app_add_w with (K := 9.73); [exact SQ|exact MN|rewrite <- LH, Rabs_pos_eq; lra|lra..]. }
  assert (TWO : app o_two 2 2 0) by (apply app_fl; [apply (fl_two prec emax Hp He fsin fcos E17)|rewrite Rabs_pos_eq; lra]).
  assert (FA : app (o_mul (o_add sq (o_mul m nf)) o_two) (l * l) (l * l) 11.77).
  { replace (l * l) with (l * l / 2 * 2) by field.
    apply (app_mul prec emax Hp He fsin fcos u (Rle_refl _) ltac:(lra) _ _ _ _ _ _ 10.75 0); try assumption; lra. }
  set (fac := o_mul (o_add sq (o_mul m nf)) o_two) in *. clearbody fac.
  assert (L0 : 0 < l) by lra.
  assert (NZ : o_eqb fac o_zero = false).
  { destruct FA as (r & R & D & _). destruct (o_eqb fac o_zero) eqn:Q; [|reflexivity]. exfalso.
    apply (fl_eqb prec emax Hp He fsin fcos _ _ _ _ R (fl_zero' prec emax Hp He fsin fcos)) in Q. subst r.
    rewrite Rminus_0_l, Rabs_Ropp, Rabs_pos_eq in D by nra. assert (0 < l * l) by nra. nra. }
  rewrite NZ. cbn [negb].
  pose proof (app_sqrt fac l 11.77 FA ltac:(lra) ltac:(lra) ltac:(lra)) as FS.
  assert (FS' : app (o_sqrt fac) l l 7.02) by (apply (app_grow prec emax u (Rle_refl _) _ _ l (0.51 * 11.77 + 1.01)); [exact FS|lra|lra]).
  set (f := o_sqrt fac) in *. clearbody f. clear FS.
  (* the first division *)
  set (col := o_add c0 (o_mul g nf) :: rest).
  assert (CL : forall i, (i < length col)%nat -> app (nth i col o_zero) (comp z i) l 4.7).
  { intros i Hi. destruct (comp_le z) as (D0 & D1 & D2). fold l in D0, D1, D2. destruct i as [|i].
    - cbn [nth col]. unfold comp, z, hz. cbn [vx pad]. fold x0 n. eapply app_add_w with (K := 3.62); [apply app_fl; [exact X0|exact C0]|exact SN|exact D0|lra..].
    - apply (app_grow prec emax u (Rle_refl _) _ _ l 0); [|lra|lra]. pose proof (nth_fin (c0 :: rest) (S i) FX) as X. cbn [nth] in X. cbn [nth col].
      destruct i as [|[|i]]; [apply app_fl; [exact X|exact D1]|apply app_fl; [exact X|exact D2]|]. cbn [col length] in Hi, LX. lia. }
  set (w := vunit z) in *. assert (OUT : forall i, (length col <= i)%nat -> (1 <= i <= 2)%nat -> comp w i = 0).
  { intros i Hi H2. unfold w. rewrite vunit_comp. assert (comp z i = 0) as ->; [|unfold Rdiv; ring].
    cbn [col length] in Hi. destruct i as [|[|[|i]]]; try lia; unfold z, hz; cbn [comp vx vy vz pad]; apply e_out; cbn [length]; lia. }
  assert (C1' : forall i, (i < length col)%nat -> app (o_div (nth i col o_zero) f) (comp w i) 1 12.9).
  { intros i Hi. unfold w. rewrite vunit_comp. fold l. replace 1 with (l / l) by (field; lra).
    apply (app_grow prec emax u (Rle_refl _) _ _ (l / l) (1.01 * 4.7 + 1.01 * 7.02 + 1.02)); [|lra|lra].
    pose proof tiny1. apply app_div; try lra; [now apply CL|exact FS'|replace (l / l) with 1 by (field; lra); lra|].
    replace (l / l) with 1 by (field; lra). pose proof (big64 emax E17). lra. }
  set (c1 := map (fun x => o_div x f) col) in *.
  assert (LC1 : length c1 = length col) by apply map_length.
  assert (C1A : forall i, (i < length c1)%nat -> app (nth i c1 o_zero) (comp w i) 1 12.9).
  { intros i Hi. unfold c1. rewrite e_map by (now rewrite <- LC1). apply C1'. now rewrite <- LC1. }
  assert (FC1 : lfin c1) by (apply app_lfin; intros i Hi; eexists _, _, _; now apply C1A).
  assert (D1 : vdist (pad c1) w <= 1.7321 * (12.9 * u)).
  { apply pad_comps. intros i Hi. fold (comp w i). destruct (Nat.lt_ge_cases i (length c1)) as [Q|Q].
    - destruct (C1A i Q) as (r & (_ & R) & D & _). unfold e_. rewrite R. lra.
    - rewrite e_out by exact Q. rewrite OUT; [rewrite Rminus_0_r, Rabs_R0; lra|now rewrite <- LC1|]. rewrite LC1 in Q. cbn [col length] in Q. lia. }
  assert (LW : vlen w = 1) by (unfold vlen; rewrite ZU; apply sqrt_1).
  pose proof (vdist_len (pad c1) w) as (LC & LC'). rewrite LW in LC, LC'. set (lc := vlen (pad c1)) in *.
  pose proof tiny1 as T1. pose proof (big64 emax E17) as BB.
  assert (LCs : 0.998 <= lc <= 1.002) by lra. assert (LCC : 0.99 <= lc * lc <= 1.005) by nra.
  assert (LTINY : tiny <= 0.99).
  { apply Rle_trans with (bpow radix2 (-1)); [apply bpow_le; lia|simpl; lra]. }
  assert (SQ1 : app (ldot c1 c1) (lc * lc) (lc * lc) 5.1).
  { replace (lc * lc) with (vdot (pad c1) (pad c1)) at 1 by (symmetry; apply vlen_sq). apply (ldot_app c1 c1 (lc * lc) eq_refl); [rewrite LC1; exact LX|exact FC1|exact FC1|apply Rle_refl|lra|lra]. }
  pose proof (app_sqrt _ lc 5.1 SQ1 ltac:(lra) ltac:(lra) ltac:(lra)) as NO1.
  set (n1 := o_sqrt (ldot c1 c1)) in *. clearbody n1. clear SQ1.
  assert (NO1' : app n1 1 1 26.2).
  { destruct NO1 as (r & R & D & _). exists r. split; [exact R|]. split; [|rewrite Rabs_R1; lra].
    replace (r - 1) with ((r - lc) + (lc - 1)) by ring. eapply Rle_trans; [apply tri; [exact D|apply Rabs_le; split; [apply (Rplus_le_reg_r 1); instantiate (1 := 1.7321 * (12.9 * u)); lra|lra]]|]. nra. }
  assert (AX : forall i, (i < length c1)%nat -> app (o_div (nth i c1 o_zero) n1) (comp w i) 1 40.6).
  { intros i Hi. replace (comp w i) with (comp w i / 1) by field. replace 1 with (1 / 1) at 2 by field.
    apply (app_grow prec emax u (Rle_refl _) _ _ (1 / 1) (1.01 * 12.9 + 1.01 * 26.2 + 1.02)); [|lra|lra].
    apply app_div; try lra; [now apply C1A|exact NO1']. }
  clear NO1 NO1'.
  eexists _, _, (- s), w. split; [reflexivity|]. split; [now rewrite map_length, LC1|].
  assert (AX' : forall i, (i < length (map (fun x => o_div x n1) c1))%nat -> app (nth i (map (fun x => o_div x n1) c1) o_zero) (comp w i) 1 40.6).
  { intros i Hi. rewrite map_length in Hi. rewrite e_map by exact Hi. now apply AX. }
  split; [apply app_lfin; intros i Hi; eexists _, _, _; now apply AX'|]. split.
  { apply Rle_trans with (1.7321 * (40.6 * u)); [|nra]. apply pad_comps. intros i Hi. fold (comp w i). destruct (Nat.lt_ge_cases i (length (map (fun x => o_div x n1) c1))) as [Q|Q].
    - destruct (AX' i Q) as (r & (_ & R) & D & _). unfold e_. rewrite R. lra.
    - rewrite e_out by exact Q. rewrite map_length in Q. rewrite OUT; [rewrite Rminus_0_r, Rabs_R0; lra|now rewrite <- LC1|]. rewrite LC1 in Q. cbn [col length] in Q. lia. }
  split; [exact ZU|]. split; [lra|].
  assert (RN : 0 < rn).
  { destruct NO' as (r & (_ & R) & D & _). destruct FNF as (_ & FNF). rewrite R in FNF. subst r. apply Rabs_le_inv in D. nra. }
  split.
  { pose proof (fl_neg prec emax Hp He fsin fcos _ _ FSN) as FD. destruct (fl_signum _ _ FD) as (t & T & TT & TA); [intros H; assert (s * (s * rn) = 0) by nra; nra|].
    assert (t = - s) as <-; [|exact T]. assert (RA : Rabs (- (s * rn)) = rn).
    { rewrite Rabs_Ropp, Rabs_mult, (Rabs_pos_eq rn) by lra. assert (SA : Rabs s = 1); [|now rewrite SA, Rmult_1_l].
      assert (Rabs s * Rabs s = 1) by (rewrite <- Rabs_mult, S1; apply Rabs_R1). pose proof (Rabs_pos s). nra. }
    rewrite RA in TA. assert (Q : - (t * s) * rn = 1 * rn) by lra. apply Rmult_eq_reg_r in Q; [|lra].
    replace t with (t * (s * s)) by (rewrite S1; ring). replace (t * (s * s)) with (- (t * s) * - s) by ring. rewrite Q. ring. }
  split; [exact ZR|]. split.
  { apply (app_grow prec emax u (Rle_refl _) _ _ n 3.62); [|lra|lra]. destruct NO' as (r & R & D & LN). exists r. split; [|split; assumption].
    pose proof (fl_abs prec emax Hp He fsin fcos _ _ (fl_neg prec emax Hp He fsin fcos _ _ FSN)) as FD.
    assert (rn = r) by (destruct R as (_ & R), FNF as (_ & R'); congruence). subst r.
    assert (RA : Rabs (- (s * rn)) = rn).
    { rewrite Rabs_Ropp, Rabs_mult, (Rabs_pos_eq rn) by lra. assert (SA : Rabs s = 1); [|now rewrite SA, Rmult_1_l].
      assert (Rabs s * Rabs s = 1) by (rewrite <- Rabs_mult, S1; apply Rabs_R1). pose proof (Rabs_pos s). nra. }
    rewrite RA in FD. exact FD. }
  intros i Hi. apply OUT; cbn [col length] in *; lia.
Qed.

(** ** Reflecting a column *)
Definition refl (w : V3 R) (s : R) (y : V3 R) : V3 R := vscl s (vsub y (vscl (2 * vdot w y) w)).
Lemma refl_len w s y : vdot w w = 1 -> s * s = 1 -> vlen (refl w s y) = vlen y.
Proof.
  intros W S1. unfold vlen. f_equal. unfold refl. rewrite vdot_vscl_l, vdot_vscl_r, <- Rmult_assoc, S1, !vdot_vsub_l, !vdot_vsub_r, !vdot_vscl_l, !vdot_vscl_r, W, (vdot_comm y w). ring.
Qed.
Lemma refl_comp w s y i : comp (refl w s y) i = s * - (2) * vdot w y * comp w i + s * comp y i.
Proof. destruct i as [|[|i]]; unfold refl, vscl, vsub; cbn [comp vx vy vz]; ring. Qed.
Lemma comp_len w i : Rabs (comp w i) <= vlen w.
Proof. destruct (comp_le w) as (A & B & C). destruct i as [|[|i]]; assumption. Qed.
Lemma comp_pad l i : (i <= 2)%nat -> comp (pad l) i = e_ l i.
Proof. intros H. destruct i as [|[|[|i]]]; try reflexivity. lia. Qed.
Lemma comp_vsub a b i : comp (vsub a b) i = comp a i - comp b i.
Proof. destruct i as [|[|i]]; reflexivity. Qed.
Lemma fl_mtwo : flr o_mtwo (- (2)).
Proof.
  assert (H : - (2) = IZR (-2) * bpow radix2 0) by (cbn; lra). rewrite H at 1. pose proof He as EE. unfold Prec_lt_emax in EE.
  apply (fl_lit prec emax Hp He fsin fcos (-2) 0); rewrite <- H.
  - apply fmt_opp. change 2 with (bpow radix2 1). apply fmt_bpow; [exact Hp|lia].
  - rewrite Rabs_Ropp, Rabs_pos_eq by lra. change 2 with (bpow radix2 1). apply bpow_lt. lia.
Qed.
Lemma reflect_app axis w sg s y Y : length axis = length y -> (1 <= length y <= 3)%nat -> lfin axis -> lfin y -> vdist (pad axis) w <= 71 * u -> vdot w w = 1 ->
  flr sg s -> s * s = 1 -> (forall i, (length y <= i <= 2)%nat -> comp w i = 0) -> vlen (pad y) <= Y -> tiny <= Y -> 64 * Y <= big ->
  let r := reflect_with_sign axis sg y in length r = length y /\ lfin r /\ vdist (pad r) (refl w s (pad y)) <= 534 * u * Y.
Proof.
  intros LA LY FA FY DW W SG S1 OUT YL T B r. pose proof u0 as U0. pose proof u14 as U1. pose proof tiny1 as T1. pose proof (big64 emax E17) as BB.
  assert (LW : vlen w = 1) by (unfold vlen; rewrite W; apply sqrt_1).
  pose proof (vdist_len (pad axis) w) as (LC & LC'). rewrite LW in LC, LC'.
  assert (Y0 : 0 < Y) by (apply Rlt_le_trans with (2 := T), bpow_gt_0).
  assert (SA : Rabs s = 1). { assert (Rabs s * Rabs s = 1) by (rewrite <- Rabs_mult, S1; apply Rabs_R1). pose proof (Rabs_pos s). nra. }
  assert (D0 : app (ldot axis y) (vdot w (pad y)) Y 76.3).
  { destruct (ldot_app axis y (1.005 * Y)) as (q & Q & D & _); try assumption; try lra; [rewrite LA; exact LY|apply Rmult_le_compat; try apply vlen_nonneg; lra|].
    exists q. split; [exact Q|]. split.
    - replace (q - vdot w (pad y)) with ((q - vdot (pad axis) (pad y)) + vdot (vsub (pad axis) w) (pad y)) by (rewrite vdot_vsub_l; ring).
      eapply Rle_trans; [apply tri; [exact D|apply cauchy_schwarz]|].
      assert (vlen (vsub (pad axis) w) * vlen (pad y) <= 71 * u * Y) by (apply Rmult_le_compat; try apply vlen_nonneg; assumption). nra.
    - eapply Rle_trans; [apply cauchy_schwarz|]. rewrite LW. lra. }
  assert (D1 : app (o_sub (ldot axis y) o_zero) (vdot w (pad y)) Y 77.4).
  { destruct D0 as (q & Q & D & L). destruct (sub_err prec emax Hp He fsin fcos _ _ q 0 (1.005 * Y) Q (fl_zero' prec emax Hp He fsin fcos)) as (t & TT & E & _); [lra| |nra|].
    - rewrite Rminus_0_r. replace q with ((q - vdot w (pad y)) + vdot w (pad y)) by ring. eapply Rle_trans; [apply tri; eassumption|]. nra.
    - exists t. split; [exact TT|]. split; [|exact L]. replace (t - vdot w (pad y)) with ((t - (q - 0)) + (q - vdot w (pad y))) by ring. eapply Rle_trans; [apply tri; eassumption|]. nra. }
  assert (MT : app (o_mul sg o_mtwo) (s * - (2)) 2 0).
  { apply app_fl; [now apply fl_sign_mul; [exact SG|exact fl_mtwo|]|]. rewrite Rabs_mult, SA, Rabs_Ropp, Rabs_pos_eq; lra. }
  assert (D2 : app (o_mul (o_sub (ldot axis y) o_zero) (o_mul sg o_mtwo)) (vdot w (pad y) * (s * - (2))) (Y * 2) 78.5).
  { apply (app_mul prec emax Hp He fsin fcos u (Rle_refl _) ltac:(lra) _ _ _ _ _ _ 77.4 0); try assumption; lra. }
  set (fac := o_mul (o_sub (ldot axis y) o_zero) (o_mul sg o_mtwo)) in *.
  assert (LR : length r = length y) by (unfold r, reflect_with_sign; rewrite map_length, combine_length, LA; apply Nat.min_id).
  split; [exact LR|].
  assert (NR : forall i, (i < length y)%nat -> nth i r o_zero = o_add (o_mul fac (nth i axis o_zero)) (o_mul sg (nth i y o_zero))).
  { intros i Hi. set (g := fun xy : F * F => o_add (o_mul fac (fst xy)) (o_mul sg (snd xy))).
    change (nth i (map g (combine axis y)) o_zero = g (nth i axis o_zero, nth i y o_zero)).
    rewrite (nth_indep _ o_zero (g (o_zero, o_zero))) by (rewrite map_length, combine_length, LA, Nat.min_id; exact Hi).
    rewrite map_nth, combine_nth by exact LA. reflexivity. }
  assert (AR : forall i, (i < length y)%nat -> app (nth i r o_zero) (comp (refl w s (pad y)) i) Y 308).
  { intros i Hi. rewrite NR, refl_comp by exact Hi. assert (I2 : (i <= 2)%nat) by lia.
    assert (AX : app (nth i axis o_zero) (comp w i) 1 71).
    { exists (e_ axis i). split; [now apply nth_fin|]. split; [|now apply unit_comp]. rewrite <- comp_pad, <- comp_vsub by exact I2.
      eapply Rle_trans; [apply comp_len|]. unfold vdist in DW. lra. }
    assert (PM : app (o_mul fac (nth i axis o_zero)) (s * - (2) * vdot w (pad y) * comp w i) (Y * 2) 153.4).
    { apply app_eq with (a := vdot w (pad y) * (s * - (2)) * comp w i); [|ring]. replace (Y * 2) with (Y * 2 * 1) by ring.
      apply (app_mul prec emax Hp He fsin fcos u (Rle_refl _) ltac:(lra) _ _ _ _ _ _ 78.5 71); try assumption; lra. }
    assert (PY : app (o_mul sg (nth i y o_zero)) (s * comp (pad y) i) Y 0).
    { apply app_fl; [apply fl_sign_mul; [exact SG|rewrite comp_pad by exact I2; now apply nth_fin|exact S1]|]. rewrite Rabs_mult, SA, Rmult_1_l.
      eapply Rle_trans; [apply comp_len|exact YL]. }
    eapply app_add_w with (K := 306.8); [exact PM|exact PY| |lra..].
    rewrite <- refl_comp. eapply Rle_trans; [apply comp_len|]. rewrite refl_len; assumption. }
  split; [apply app_lfin; rewrite LR; intros i Hi; eexists _, _, _; now apply AR|].
  apply Rle_trans with (1.7321 * (308 * u * Y)); [|nra]. apply pad_comps. intros i Hi. fold (comp (refl w s (pad y)) i).
  destruct (Nat.lt_ge_cases i (length y)) as [Q|Q].
  - destruct (AR i Q) as (t & (_ & R) & D & _). unfold e_. rewrite R. exact D.
  - rewrite e_out by (rewrite LR; exact Q). rewrite refl_comp, OUT, comp_pad, e_out by lia.
    match goal with |- Rabs ?x <= _ => replace x with 0 by ring end. rewrite Rabs_R0. apply Rmult_le_pos; [apply Rmult_le_pos|]; lra.
Qed.
End QR.
