(** * FloatQRProofs2.v - backward error of nalgebra's Householder QR of a 3x3 matrix (C108) *)

From Coq Require Import ZArith Reals List Bool Lra Lia Psatz.
From Flocq Require Import Core BinarySingleNaN.
From Verif Require Import Scalar Linalg Householder Spec SpecFloatErr RealBase VecLemmas FloatBase FloatRound FloatErrProofs FloatApprox FloatRigidProofs
  FloatDirProofs FloatViewProofs QRProofs JacProofs SpecSvd SymEigenProofs SymEigenProofs4 SymEigenProofs6 FloatQRProofs.
Import ListNotations.
Local Open Scope R_scope.

Section QR.
Variables (prec emax : Z) (Hp : Prec_gt_0 prec) (He : Prec_lt_emax prec emax).
Variables fsin fcos : binary_float prec emax -> binary_float prec emax.
Local Notation F := (binary_float prec emax).
Local Hint Extern 0 (Ops (binary_float prec emax)) =>
  exact (B_ops prec emax Hp He fsin fcos) : typeclass_instances.
Local Notation u := (bpow radix2 (- prec)).
Local Notation big := (bpow radix2 emax).
Local Notation tiny := (bpow radix2 (2 - emax)).
Local Notation flr := (fl prec emax).
Hypotheses (P14 : (14 <= prec)%Z) (E17 : (17 <= emax)%Z).
Local Notation tiny1 := (tiny_le_1 emax E17).
Local Notation u14 := (u14 prec P14).
Local Notation u0 := (u0 prec).
Local Notation app := (app prec emax u).
Local Notation pad := (pad prec emax Hp He fsin fcos).
Local Notation e_ := (e_ prec emax Hp He fsin fcos).
Local Notation lfin := (lfin prec emax).

(** the matrix of a reflection in the rows from [i] *)
Definition gmat (i : nat) (w : V3 R) (s : R) : M33 R :=
  match i with 0%nat => G0 (vx w) (vy w) (vz w) s | 1%nat => G1 (vx w) (vy w) s | _ => G2 (vx w) s end.
Definition gok (i : nat) (w : V3 R) (s : R) : Prop :=
  vdot w w = 1 /\ s * s = 1 /\ (forall j, (3 - i <= j <= 2)%nat -> comp w j = 0).
Lemma gmat_tr i w s : mtr (gmat i w s) = gmat i w s.
Proof. destruct i as [|[|i]]; unfold gmat, G0, G1, G2; vring. Qed.
Lemma gmat_orthogonal i w s : (i <= 2)%nat -> gok i w s -> orthogonal (gmat i w s).
Proof.
  intros I (W & S1 & OUT). unfold orthogonal. rewrite gmat_tr. destruct w as [x y z]. unfold vdot in W. cbn [vx vy vz] in W.
  destruct i as [|[|[|i]]]; [| | |lia]; cbn [gmat vx vy vz].
  - split; (apply G0_sq; [exact S1|left; exact W]).
  - pose proof (OUT 2%nat ltac:(lia)) as Z. cbn [comp vz] in Z. subst z. split; (apply G1_sq; [exact S1|left; lra]).
  - pose proof (OUT 2%nat ltac:(lia)) as Z. pose proof (OUT 1%nat ltac:(lia)) as Z1. cbn [comp vy vz] in Z, Z1. subst y z. split; (apply G2_sq; [exact S1|left; lra]).
Qed.
Definition sub_vec (i : nat) (v : V3 R) : V3 R :=
  match i with 0%nat => v | 1%nat => mkV3 (vy v) (vz v) 0 | _ => mkV3 (vz v) 0 0 end.
Definition put_vec (i : nat) (v r : V3 R) : V3 R :=
  match i with 0%nat => r | 1%nat => mkV3 (vx v) (vx r) (vy r) | _ => mkV3 (vx v) (vy v) (vx r) end.
Lemma gmat_put i w s v : (i <= 2)%nat -> gok i w s -> mv (gmat i w s) v = put_vec i v (refl w s (sub_vec i v)).
Proof.
  intros I (W & S1 & OUT). destruct w as [x y z], v as [p q r].
  destruct i as [|[|[|i]]]; [| | |lia]; cbn [gmat put_vec sub_vec vx vy vz].
  - unfold G0, refl. vring.
  - pose proof (OUT 2%nat ltac:(lia)) as Z. cbn [comp vz] in Z. subst z. unfold G1, refl. vring.
  - pose proof (OUT 2%nat ltac:(lia)) as Z. pose proof (OUT 1%nat ltac:(lia)) as Z1. cbn [comp vy vz] in Z, Z1. subst y z. unfold G2, refl. vring.
Qed.
Lemma put_dist i v r r' : (forall j, (3 - i <= j <= 2)%nat -> comp r j = comp r' j) -> vdist (put_vec i v r) (put_vec i v r') <= vdist r r'.
Proof.
  intros H. destruct v as [a b c], r as [x y z], r' as [x' y' z']. unfold vdist.
  destruct i as [|[|i]]; cbn [put_vec]; [apply Rle_refl| |]; apply sqrt_le_1_alt; unfold vdot, vsub; cbn [vx vy vz];
    pose proof (Rle_0_sqr (x - x')); pose proof (Rle_0_sqr (y - y')); pose proof (Rle_0_sqr (z - z')); unfold Rsqr in *; lra.
Qed.
Lemma refl_out i w s v j : gok i w s -> (3 - i <= j <= 2)%nat -> comp v j = 0 -> comp (refl w s v) j = 0.
Proof. intros (_ & _ & OUT) J V. rewrite refl_comp, OUT, V by exact J. ring. Qed.
Lemma sub_len i v : vlen (sub_vec i v) <= vlen v.
Proof. destruct v as [x y z]. destruct i as [|[|i]]; cbn [sub_vec vx vy vz]; [apply Rle_refl| |]; apply sqrt_le_1_alt; unfold vdot; cbn [vx vy vz]; nra. Qed.
Lemma sub_sub i v v' : sub_vec i (vsub v v') = vsub (sub_vec i v) (sub_vec i v').
Proof. destruct v as [a b c], v' as [a' b' c']. destruct i as [|[|i]]; cbn [sub_vec]; [reflexivity| |]; vring. Qed.
Lemma sub_near i v v' : vlen (sub_vec i v') - vdist v v' <= vlen (sub_vec i v).
Proof.
  pose proof (vdist_len (sub_vec i v) (sub_vec i v')) as (A & _). pose proof (sub_len i (vsub v v')) as B. rewrite sub_sub in B. unfold vdist in *. lra.
Qed.
(** lists of three floats *)
Lemma pad_skipn i l : length l = 3%nat -> (i <= 2)%nat -> pad (skipn i l) = sub_vec i (pad l).
Proof. intros L I. destruct l as [|a [|b [|c [|d l]]]]; try discriminate. destruct i as [|[|[|i]]]; [reflexivity..|lia]. Qed.
Lemma pad_rows i f l : length l = 3%nat -> (i <= 2)%nat -> length (f (skipn i l)) = length (skipn i l) -> pad (on_rows_from i f l) = put_vec i (pad l) (pad (f (skipn i l))).
Proof.
  intros L I LF. destruct l as [|a [|b [|c [|d l]]]]; try discriminate. unfold on_rows_from.
  destruct i as [|[|[|i]]]; [reflexivity| | |lia]; cbn [skipn firstn] in *; cbn [length] in LF.
  - destruct (f [b; c]) as [|p [|q [|r t]]]; try discriminate. reflexivity.
  - destruct (f [c]) as [|p [|q t]]; try discriminate. reflexivity.
Qed.
Lemma lfin_skipn i l : lfin l -> lfin (skipn i l).
Proof. intros H. rewrite <- (firstn_skipn i l) in H. unfold FloatQRProofs.lfin in *. now apply Forall_app in H. Qed.
Lemma lfin_firstn i l : lfin l -> lfin (firstn i l).
Proof. intros H. rewrite <- (firstn_skipn i l) in H. unfold FloatQRProofs.lfin in *. now apply Forall_app in H. Qed.

(** one reflection of a column *)
Lemma step_app i axis w sg s l Y : (i <= 2)%nat -> length axis = (3 - i)%nat -> length l = 3%nat -> lfin axis -> lfin l -> vdist (pad axis) w <= 71 * u -> gok i w s -> flr sg s ->
  vlen (pad l) <= Y -> tiny <= Y -> 64 * Y <= big ->
  let r := on_rows_from i (reflect_with_sign axis sg) l in length r = 3%nat /\ lfin r /\ vdist (pad r) (mv (gmat i w s) (pad l)) <= 534 * u * Y.
Proof.
  intros I LA L FA FL DW OK SG YL T B r. pose proof OK as (W & S1 & OUT).
  assert (LS : length (skipn i l) = (3 - i)%nat) by (rewrite skipn_length; lia).
  destruct (reflect_app prec emax Hp He fsin fcos P14 E17 axis w sg s (skipn i l) Y) as (R1 & R2 & R3); try assumption; try lia.
  - now apply lfin_skipn.
  - intros j J. apply OUT. lia.
  - rewrite pad_skipn by assumption. eapply Rle_trans; [apply sub_len|exact YL].
  - split; [unfold r, on_rows_from; rewrite app_length, R1, LS, firstn_length, L; lia|]. split.
    + apply Forall_app. split; [now apply lfin_firstn|exact R2].
    + unfold r. rewrite pad_rows, gmat_put by assumption. rewrite <- (pad_skipn i l) by assumption.
      eapply Rle_trans; [apply put_dist|exact R3].
      intros j J. rewrite comp_pad, e_out by lia. symmetry. apply (refl_out i); [exact OK|exact J|]. rewrite comp_pad, e_out by lia. reflexivity.
Qed.
(** a pivot column *)
Lemma pivot_app i l E : (i <= 2)%nat -> length l = 3%nat -> lfin l -> (0 <= E)%Z -> (2 * E + 6 <= emax)%Z ->
  let n := vlen (sub_vec i (pad l)) in bpow radix2 (- E) <= n <= bpow radix2 E ->
  exists axis d s w, reflection_axis_mut (skipn i l) = (axis, d, true) /\ length axis = (3 - i)%nat /\ lfin axis /\ vdist (pad axis) w <= 71 * u /\ gok i w s /\
    flr (o_signum d) s /\ mv (gmat i w s) (pad l) = put_vec i (pad l) (mkV3 n 0 0) /\ app (o_abs d) n n 4.
Proof.
  intros I L FL E0 E2 n LN. assert (LS : length (skipn i l) = (3 - i)%nat) by (rewrite skipn_length; lia).
  destruct (axis_app prec emax Hp He fsin fcos P14 E17 (skipn i l) E) as (axis & d & s & w & A1 & A2 & A3 & A4 & A5 & A6 & A7 & A8 & A9 & A10); try assumption; try lia.
  - now apply lfin_skipn.
  - rewrite pad_skipn; assumption.
  - rewrite pad_skipn in * by assumption. exists axis, d, s, w. assert (OK : gok i w s) by (split; [exact A5|]; split; [exact A6|intros j J; apply A10; lia]).
    split; [exact A1|]. split; [lia|]. split; [exact A3|]. split; [exact A4|]. split; [exact OK|]. split; [exact A7|]. split; [|exact A9].
    rewrite gmat_put by assumption. unfold refl. rewrite A8. reflexivity.
Qed.

(** the whole decomposition, given its three pivots *)
Lemma qr_unfold (a b c axis0 axis1 axis2 : list F) (d0 d1 d2 : F) : let row i ax (d : F) := on_rows_from i (reflect_with_sign ax (o_signum d)) in
  reflection_axis_mut (skipn 0 a) = (axis0, d0, true) ->
  let b1 := row 0%nat axis0 d0 b in let c1 := row 0%nat axis0 d0 c in reflection_axis_mut (skipn 1 b1) = (axis1, d1, true) ->
  let c2 := row 1%nat axis1 d1 c1 in reflection_axis_mut (skipn 2 c2) = (axis2, d2, true) ->
  qr_new [a; b; c] = mkQR [axis0; firstn 1 b1 ++ axis1; firstn 2 c2 ++ axis2] [d0; d1; d2].
Proof.
  intros row E0 b1 c1 E1 c2 E2. unfold qr_new. unfold clear_column at 1. cbn [nth]. rewrite E0. cbn [map_cols Nat.eqb Nat.ltb Nat.leb andb].
  change (on_rows_from 0 (reflect_with_sign axis0 (o_signum d0)) b) with b1. change (on_rows_from 0 (reflect_with_sign axis0 (o_signum d0)) c) with c1.
  unfold clear_column at 1. cbn [nth]. rewrite E1. cbn [map_cols Nat.eqb Nat.ltb Nat.leb andb].
  change (on_rows_from 1 (reflect_with_sign axis1 (o_signum d1)) c1) with c2.
  unfold clear_column at 1. cbn [nth]. rewrite E2. cbn [map_cols Nat.eqb Nat.ltb Nat.leb andb]. reflexivity.
Qed.
Lemma qr_q_unfold (axis0 axis1 axis2 fb fc : list F) (d0 d1 d2 : F) : length fb = 1%nat -> length fc = 2%nat ->
  let row i ax (d : F) := on_rows_from i (reflect_with_sign ax (o_signum d)) in let z := (o_zero : F) in let o := (o_one : F) in
  qr_q (mkQR [axis0; fb ++ axis1; fc ++ axis2] [d0; d1; d2])
  = m33_of_cols [row 0%nat axis0 d0 [o; z; z]; row 0%nat axis0 d0 (row 1%nat axis1 d1 [z; o; z]); row 0%nat axis0 d0 (row 1%nat axis1 d1 (row 2%nat axis2 d2 [z; z; o]))].
Proof.
  intros LB LC row z o. unfold qr_q. cbv zeta. f_equal. unfold qr_q_step. cbn [qr_cols qr_diag nth map_cols Nat.leb].
  rewrite !skipn_app, LB, LC. rewrite (skipn_all2 fb), (skipn_all2 fc) by lia. reflexivity.
Qed.
Lemma orth_dist m x y : orthogonal m -> vdist (mv m x) (mv m y) = vdist x y.
Proof. intros M. unfold vdist. replace (vsub (mv m x) (mv m y)) with (mv m (vsub x y)) by vring. now apply orthogonal_len. Qed.
Lemma pad3 l : length l = 3%nat -> pad [nth 0 l o_zero; nth 1 l o_zero; nth 2 l o_zero] = pad l.
Proof. reflexivity. Qed.
Lemma gmat_fix i w s v : (1 <= i <= 2)%nat -> gok i w s -> sub_vec i v = vO -> mv (gmat i w s) v = v.
Proof.
  intros I OK Z. rewrite gmat_put, Z by (try assumption; lia). destruct v as [x y z]. destruct i as [|[|[|i]]]; try lia; cbn [sub_vec put_vec vx vy vz] in *; unfold vO in Z; injection Z; intros; subst; unfold refl; vring.
Qed.
(** three vectors in general position, each measured by its own length *)
Definition indep (lam : R) (A B C : V3 R) : Prop := forall p q r,
  lam * lam * (p * p * vdot A A + q * q * vdot B B + r * r * vdot C C) <=
  let v := vadd (vadd (vscl p A) (vscl q B)) (vscl r C) in vdot v v.
Definition qr_col (l : list F) (v : V3 R) (e : R) : Prop := length l = 3%nat /\ lfin l /\ vdist (pad l) v <= e.
Lemma comb_mv m p q r A B C : mv m (vadd (vadd (vscl p A) (vscl q B)) (vscl r C)) = vadd (vadd (vscl p (mv m A)) (vscl q (mv m B))) (vscl r (mv m C)).
Proof. vring. Qed.
Lemma le_from_sq a b : 0 <= b -> a * a <= b * b -> a <= b.
Proof. intros B H. destruct (Rle_dec a b); [assumption|]. nra. Qed.
Lemma indep_mv lam m A B C : orthogonal m -> indep lam A B C -> indep lam (mv m A) (mv m B) (mv m C).
Proof. intros M H p q r. rewrite <- comb_mv. cbv zeta. rewrite !(orthogonal_dot m) by exact M. apply H. Qed.
Lemma pivot1_real lam al B C : 0 < lam -> 0 < al -> indep lam (mkV3 al 0 0) B C -> lam * vlen B <= vlen (sub_vec 1 B).
Proof.
  intros L AL H. apply le_from_sq; [apply vlen_nonneg|]. replace (lam * vlen B * (lam * vlen B)) with (lam * lam * (vlen B * vlen B)) by ring. rewrite !vlen_sq.
  destruct B as [x y z], C as [c1 c2 c3]. pose proof (H (- (x / al)) 1 0) as I. cbv zeta in I. revert I. cbn [sub_vec vx vy vz]. ru_spec. intros I.
  assert (Z : x / al * al = x) by (field; lra). set (t := x / al) in *. clearbody t. subst x.
  pose proof (Rle_0_sqr (t * al)) as X. unfold Rsqr in X. pose proof (Rmult_le_pos _ _ (Rmult_le_pos lam lam ltac:(lra) ltac:(lra)) X).
  match type of I with ?a <= ?b => replace a with (lam * lam * (t * al * (t * al)) + lam * lam * (t * al * (t * al) + y * y + z * z)) in I by ring; replace b with (y * y + z * z) in I by ring end.
  lra.
Qed.
Lemma pivot2_real lam e al B C : 0 < lam -> 0 < al -> vy B <> 0 -> Rabs (vz B) <= e * vlen B -> e <= 0.107 * lam -> indep lam (mkV3 al 0 0) B C -> 0.893 * (lam * vlen C) <= Rabs (vz C).
Proof.
  intros L AL YB ZB EL H. set (q := vy C / vy B). set (p := (vx C - q * vx B) / al).
  pose proof (H (- p) (- q) 1) as I. cbv zeta in I.
  assert (V : vadd (vadd (vscl (- p) (mkV3 al 0 0)) (vscl (- q) B)) (vscl 1 C) = mkV3 0 0 (vz C - q * vz B)).
  { assert (P1 : p * al = vx C - q * vx B) by (unfold p; field; lra). assert (Q1 : q * vy B = vy C) by (unfold q; now field). clearbody p q.
    destruct B as [x y z], C as [c1 c2 c3]. cbn [vx vy vz] in *. apply V3_eq; ru_spec; lra. }
  rewrite V in I. clear V. set (X := Rabs (vz C - q * vz B)).
  assert (X2 : vdot (mkV3 0 0 (vz C - q * vz B)) (mkV3 0 0 (vz C - q * vz B)) = X * X) by (unfold X; rewrite <- Rabs_mult, Rabs_pos_eq by apply Rle_0_sqr; ru_spec; ring).
  rewrite X2 in I. assert (X0 : 0 <= X) by apply Rabs_pos.
  assert (PP : 0 <= - p * - p * vdot (mkV3 al 0 0) (mkV3 al 0 0)) by (apply Rmult_le_pos; [apply Rle_0_sqr|apply vdot_self_nonneg]).
  rewrite <- (vlen_sq B), <- (vlen_sq C) in I. pose proof (vlen_nonneg B) as B0. pose proof (vlen_nonneg C) as C0.
  assert (LL : 0 < lam * lam) by (now apply Rmult_lt_0_compat).
  assert (I' : lam * lam * (q * q * (vlen B * vlen B) + vlen C * vlen C) <= X * X) by (eapply Rle_trans; [|exact I]; apply Rmult_le_compat_l; lra).
  clear I. assert (QB : 0 <= q * q * (vlen B * vlen B)) by (apply Rmult_le_pos; apply Rle_0_sqr). pose proof (Rle_0_sqr (vlen C)) as CC. unfold Rsqr in CC.
  assert (I1 : lam * vlen C <= X) by (apply le_from_sq; [exact X0|]; eapply Rle_trans; [|exact I']; pose proof (Rmult_le_pos _ _ (Rlt_le _ _ LL) QB); lra).
  assert (I2 : lam * (Rabs q * vlen B) <= X).
  { apply le_from_sq; [exact X0|]. eapply Rle_trans; [|exact I']. replace (lam * (Rabs q * vlen B) * (lam * (Rabs q * vlen B))) with (lam * lam * (Rabs q * Rabs q * (vlen B * vlen B))) by ring.
    rewrite <- Rabs_mult, (Rabs_pos_eq (q * q)) by apply Rle_0_sqr. apply Rmult_le_compat_l; lra. }
  assert (T : X <= Rabs (vz C) + Rabs (q * vz B)) by (unfold X; eapply Rle_trans; [apply Rabs_triang|rewrite Rabs_Ropp; lra]).
  rewrite Rabs_mult in T. assert (Rabs q * Rabs (vz B) <= Rabs q * (e * vlen B)) by (apply Rmult_le_compat_l; [apply Rabs_pos|exact ZB]).
  assert (Q0 : 0 <= Rabs q * vlen B) by (apply Rmult_le_pos; [apply Rabs_pos|exact B0]).
  assert (Rabs q * (e * vlen B) <= 0.107 * X) by (replace (Rabs q * (e * vlen B)) with (e * (Rabs q * vlen B)) by ring; eapply Rle_trans; [apply Rmult_le_compat_r; [exact Q0|exact EL]|]; lra).
  lra.
Qed.
Definition fcol0 (m : M33 F) := [m00 m; m10 m; m20 m].
Definition fcol1 (m : M33 F) := [m01 m; m11 m; m21 m].
Definition fcol2 (m : M33 F) := [m02 m; m12 m; m22 m].
Lemma axis_dist x y z x' : vdist (mkV3 x y z) (mkV3 x' y z) = Rabs (x - x').
Proof. unfold vdist, vlen. rewrite <- sqrt_Rsqr_abs. f_equal. unfold Rsqr. ru_spec. ring. Qed.
Lemma axis_dist1 x y z y' : vdist (mkV3 x y z) (mkV3 x y' z) = Rabs (y - y').
Proof. unfold vdist, vlen. rewrite <- sqrt_Rsqr_abs. f_equal. unfold Rsqr. ru_spec. ring. Qed.
Lemma axis_dist2 x y z z' : vdist (mkV3 x y z) (mkV3 x y z') = Rabs (z - z').
Proof. unfold vdist, vlen. rewrite <- sqrt_Rsqr_abs. f_equal. unfold Rsqr. ru_spec. ring. Qed.
Lemma indep_le1 lam A B C : 0 < vlen A -> indep lam A B C -> lam <= 1.
Proof.
  intros L H. pose proof (H 1 0 0) as I. cbv zeta in I. replace (vadd (vadd (vscl 1 A) (vscl 0 B)) (vscl 0 C)) with A in I by vring.
  rewrite <- (vlen_sq A) in I. pose proof (Rmult_lt_0_compat _ _ L L). apply Rnot_lt_le. intros G.
  assert (1 < lam * lam) by nra. assert (vlen A * vlen A < lam * lam * (vlen A * vlen A)) by nra.
  assert (0 <= lam * lam * (0 * 0 * vdot B B + 0 * 0 * vdot C C)) by nra. lra.
Qed.
Lemma qr_col_nth l v e : qr_col l v e -> qr_col [nth 0 l o_zero; nth 1 l o_zero; nth 2 l o_zero] v e.
Proof. intros (L & FL & D). destruct l as [|x [|y [|z [|t l]]]]; try discriminate. split; [reflexivity|]. split; assumption. Qed.
Lemma mcol0_mv m : mcol0 m = mv m (mkV3 1 0 0). Proof. vring. Qed.
Lemma mcol1_mv m : mcol1 m = mv m (mkV3 0 1 0). Proof. vring. Qed.
Lemma mcol2_mv m : mcol2 m = mv m (mkV3 0 0 1). Proof. vring. Qed.
Lemma unit_lists : lfin [o_one; o_zero; o_zero] /\ lfin [o_zero; o_one; o_zero] /\ lfin [o_zero; o_zero; o_one] /\
  pad [o_one; o_zero; o_zero] = mkV3 1 0 0 /\ pad [o_zero; o_one; o_zero] = mkV3 0 1 0 /\ pad [o_zero; o_zero; o_one] = mkV3 0 0 1.
Proof.
  destruct (fl_one' prec emax Hp He fsin fcos) as (O1 & O2). destruct (fl_zero' prec emax Hp He fsin fcos) as (Z1 & Z2).
  repeat split; try (unfold FloatQRProofs.lfin; repeat (apply Forall_cons; [assumption|]); apply Forall_nil); unfold FloatQRProofs.pad, FloatQRProofs.e_; cbn [nth]; rewrite ?O2, ?Z2; reflexivity.
Qed.
Lemma qr_app (a b c : list F) lam E : length a = 3%nat -> length b = 3%nat -> length c = 3%nat -> lfin a -> lfin b -> lfin c -> (0 <= E)%Z -> (2 * E + 6 <= emax)%Z ->
  5000 * u <= lam -> indep lam (pad a) (pad b) (pad c) -> (forall x, In x [a; b; c] -> 2 * bpow radix2 (- E) <= lam * vlen (pad x) /\ 2 * vlen (pad x) <= bpow radix2 E) ->
  exists W, orthogonal W /\ let d := qr_new [a; b; c] in let q := qr_q d in let r := qr_r d in
    qr_col (fcol0 q) (mcol0 W) (1780 * u) /\ qr_col (fcol1 q) (mcol1 W) (1780 * u) /\ qr_col (fcol2 q) (mcol2 W) (1780 * u) /\
    qr_col (fcol0 r) (mv (mtr W) (pad a)) (1131 * u * vlen (pad a)) /\ qr_col (fcol1 r) (mv (mtr W) (pad b)) (1131 * u * vlen (pad b)) /\
    qr_col (fcol2 r) (mv (mtr W) (pad c)) (1131 * u * vlen (pad c)) /\
    0 < B2R (m00 r) /\ 0 < B2R (m11 r) /\ 0 < B2R (m22 r) /\ m10 r = o_zero /\ m20 r = o_zero /\ m21 r = o_zero.
Proof.
  intros LA LB LC FA FB FC E0 E6 UL IND RNG. pose proof u0 as U0. pose proof u14 as U14.
  destruct (RNG a) as (A1 & A2); [cbn; tauto|]. destruct (RNG b) as (B1 & B2); [cbn; tauto|]. destruct (RNG c) as (C1 & C2); [cbn; tauto|].
  set (A := pad a) in *. set (B := pad b) in *. set (C := pad c) in *. pose proof (bpow_gt_0 radix2 (- E)) as EP.
  pose proof (vlen_nonneg A) as A0. pose proof (vlen_nonneg B) as B0. pose proof (vlen_nonneg C) as C0.
  assert (LP : 0 < lam) by lra.
  assert (AP : 0 < vlen A) by (destruct (Req_dec (vlen A) 0) as [Z|]; [rewrite Z in A1; lra|lra]).
  assert (L1 : lam <= 1) by (apply (indep_le1 lam A B C); assumption).
  assert (lA : lam * vlen A <= vlen A) by nra. assert (lB : lam * vlen B <= vlen B) by nra. assert (lC : lam * vlen C <= vlen C) by nra.
  assert (uA : 5000 * (u * vlen A) <= lam * vlen A) by nra. assert (uB : 5000 * (u * vlen B) <= lam * vlen B) by nra. assert (uC : 5000 * (u * vlen C) <= lam * vlen C) by nra.
  assert (TE : tiny <= bpow radix2 (- E)) by (apply bpow_le; lia).
  assert (BE : 64 * bpow radix2 E <= big).
  { replace 64 with (bpow radix2 6) by (simpl; lra). rewrite <- bpow_plus. apply bpow_le. lia. }
  assert (UB : 0 <= u * vlen B) by nra. assert (UC : 0 <= u * vlen C) by nra. assert (UA : 0 <= u * vlen A) by nra.
  (* first pivot *)
  destruct (pivot_app 0 a E) as (ax0 & d0 & s0 & w0 & P01 & P02 & P03 & P04 & P05 & P06 & P07 & P08); try assumption; try lia.
  { cbn [sub_vec]. fold A. lra. }
  cbn [sub_vec put_vec] in P07, P08. fold A in P07, P08.
  set (S1 := gmat 0 w0 s0) in *. assert (O1 : orthogonal S1) by (apply gmat_orthogonal; [lia|assumption]).
  destruct (step_app 0 ax0 w0 (o_signum d0) s0 b (vlen B)) as (b1L & b1F & b1D); try assumption; try lia; try lra. { apply Rle_refl. }
  destruct (step_app 0 ax0 w0 (o_signum d0) s0 c (vlen C)) as (c1L & c1F & c1D); try assumption; try lia; try lra. { apply Rle_refl. }
  set (b1 := on_rows_from 0 (reflect_with_sign ax0 (o_signum d0)) b) in *. set (c1 := on_rows_from 0 (reflect_with_sign ax0 (o_signum d0)) c) in *.
  fold S1 in b1D, c1D. fold B in b1D. fold C in c1D.
  pose proof (indep_mv lam S1 A B C O1 IND) as I1. rewrite P07 in I1.
  pose proof (pivot1_real lam _ _ _ LP AP I1) as PB. rewrite orthogonal_len in PB by exact O1.
  pose proof (sub_near 1 (pad b1) (mv S1 B)) as N1. pose proof (vdist_len (pad b1) (mv S1 B)) as (_ & LB1). rewrite orthogonal_len in LB1 by exact O1.
  pose proof (vdist_len (pad c1) (mv S1 C)) as (_ & LC1). rewrite orthogonal_len in LC1 by exact O1.
  pose proof (sub_len 1 (pad b1)) as SB1.
  (* second pivot *)
  destruct (pivot_app 1 b1 E) as (ax1 & d1 & s1 & w1 & P11 & P12 & P13 & P14' & P15 & P16 & P17 & P18); try assumption; try lia.
  { split; lra. }
  set (n1 := vlen (sub_vec 1 (pad b1))) in *. cbn [put_vec vx vy] in P17.
  set (S2 := gmat 1 w1 s1) in *. assert (O2 : orthogonal S2) by (apply gmat_orthogonal; [lia|assumption]).
  destruct (step_app 1 ax1 w1 (o_signum d1) s1 c1 (1.107 * vlen C)) as (c2L & c2F & c2D); try assumption; try lia; try lra.
  set (c2 := on_rows_from 1 (reflect_with_sign ax1 (o_signum d1)) c1) in *. fold S2 in c2D.
  assert (c2D' : vdist (pad c2) (mv S2 (mv S1 C)) <= 1126 * u * vlen C).
  { pose proof (vdist_triangle (pad c2) (mv S2 (pad c1)) (mv S2 (mv S1 C))) as T. rewrite (orth_dist S2) in T by exact O2. lra. }
  pose proof (indep_mv lam S2 _ _ _ O2 I1) as I2.
  assert (F2 : forall x, mv S2 (mkV3 x 0 0) = mkV3 x 0 0) by (intros x; apply gmat_fix; [lia|assumption|reflexivity]). rewrite F2 in I2.
  assert (DB : vdist (mv S2 (mv S1 B)) (mkV3 (e_ b1 0) n1 0) <= 534 * u * vlen B).
  { change (e_ b1 0) with (vx (pad b1)). rewrite <- P17, (orth_dist S2) by exact O2. rewrite vdist_sym. exact b1D. }
  assert (YB : vy (mv S2 (mv S1 B)) <> 0).
  { pose proof (comp_len (vsub (mv S2 (mv S1 B)) (mkV3 (e_ b1 0) n1 0)) 1) as K. rewrite comp_vsub in K. cbn [comp vy] in K. unfold vdist in DB. intros Z. rewrite Z in K.
    rewrite Rminus_0_l, Rabs_Ropp, Rabs_pos_eq in K by apply vlen_nonneg. lra. }
  assert (ZB : Rabs (vz (mv S2 (mv S1 B))) <= 534 * u * vlen (mv S2 (mv S1 B))).
  { pose proof (comp_len (vsub (mv S2 (mv S1 B)) (mkV3 (e_ b1 0) n1 0)) 2) as K. rewrite comp_vsub in K. cbn [comp vz] in K. unfold vdist in DB.
    rewrite Rminus_0_r in K. rewrite !orthogonal_len by assumption. lra. }
  pose proof (pivot2_real lam (534 * u) _ _ _ LP AP YB ZB ltac:(lra) I2) as PC. rewrite !orthogonal_len in PC by assumption.
  assert (PC' : 0.5 * (lam * vlen C) <= vlen (sub_vec 2 (pad c2))).
  { pose proof (sub_near 2 (pad c2) (mv S2 (mv S1 C))) as N2. assert (S2L : vlen (sub_vec 2 (mv S2 (mv S1 C))) = Rabs (vz (mv S2 (mv S1 C)))).
    { cbn [sub_vec]. unfold vlen. rewrite <- sqrt_Rsqr_abs. f_equal. unfold Rsqr. ru_spec. ring. }
    rewrite S2L in N2. lra. }
  pose proof (vdist_len (pad c2) (mv S2 (mv S1 C))) as (_ & LC2). rewrite !orthogonal_len in LC2 by assumption. pose proof (sub_len 2 (pad c2)) as SC2.
  (* third pivot *)
  destruct (pivot_app 2 c2 E) as (ax2 & d2 & s2 & w2 & P21 & P22 & P23 & P24 & P25 & P26 & P27 & P28); try assumption; try lia.
  { split; lra. }
  set (n2 := vlen (sub_vec 2 (pad c2))) in *. cbn [put_vec vx vy] in P27.
  set (S3 := gmat 2 w2 s2) in *. assert (O3 : orthogonal S3) by (apply gmat_orthogonal; [lia|assumption]).
  assert (F3 : forall x y, mv S3 (mkV3 x y 0) = mkV3 x y 0) by (intros x y; apply gmat_fix; [lia|assumption|reflexivity]).
  exists (mm (mm S1 S2) S3). assert (WT : forall X, mv (mtr (mm (mm S1 S2) S3)) X = mv S3 (mv S2 (mv S1 X))).
  { intros X. rewrite !mtr_mm, !mv_mm. unfold S1, S2, S3. rewrite !gmat_tr. reflexivity. }
  split; [repeat apply orthogonal_mm; assumption|]. cbv zeta.
  rewrite (qr_unfold a b c ax0 ax1 ax2 d0 d1 d2 P01 P11 P21). fold b1 c1 c2. set (row := fun (i : nat) ax (d : F) => on_rows_from i (reflect_with_sign ax (o_signum d))) in *.
  change (row 1%nat ax1 d1 c1) with c2 in *. change (row 0%nat ax0 d0 b) with b1 in *.
  assert (Lb : length (firstn 1 b1) = 1%nat) by (rewrite firstn_length; lia). assert (Lc : length (firstn 2 c2) = 2%nat) by (rewrite firstn_length; lia).
  rewrite (qr_q_unfold ax0 ax1 ax2 (firstn 1 b1) (firstn 2 c2) d0 d1 d2 Lb Lc). fold row.
  destruct unit_lists as (U1 & U2 & U3 & V1 & V2 & V3).
  assert (LU : vlen (mkV3 1 0 0) = 1 /\ vlen (mkV3 0 1 0) = 1 /\ vlen (mkV3 0 0 1) = 1).
  { repeat split; unfold vlen; (transitivity (sqrt 1); [f_equal; ru_spec; ring|apply sqrt_1]). }
  destruct LU as (LU0 & LU1 & LU2). pose proof tiny1 as T1. assert (B17 : 64 * 2 <= big).
  { replace (64 * 2) with (bpow radix2 7) by (simpl; lra). apply bpow_le. lia. }
  set (z := (o_zero : F)) in *. set (o := (o_one : F)) in *.
  assert (u5 : 5000 * u <= 1) by lra. assert (uu : 5000 * (u * u) <= u) by nra.
  assert (STEP0 : forall l v e, qr_col l v e -> vlen v = 1 -> 0 <= e <= 0.25 -> qr_col (row 0%nat ax0 d0 l) (mv S1 v) (534 * u * (1 + e) + e)).
  { intros l v e (Ll & Lf & Ld) Lv Le. pose proof (vdist_len (pad l) v) as (_ & K). destruct (step_app 0 ax0 w0 (o_signum d0) s0 l (1 + e)) as (X1 & X2 & X3); try assumption; try lia; try lra.
    split; [exact X1|]. split; [exact X2|]. pose proof (vdist_triangle (pad (row 0%nat ax0 d0 l)) (mv S1 (pad l)) (mv S1 v)) as T. rewrite (orth_dist S1) in T by exact O1.
    change (on_rows_from 0 (reflect_with_sign ax0 (o_signum d0)) l) with (row 0%nat ax0 d0 l) in X3. fold S1 in X3. lra. }
  assert (STEP1 : forall l v e, qr_col l v e -> vlen v = 1 -> 0 <= e <= 0.25 -> qr_col (row 1%nat ax1 d1 l) (mv S2 v) (534 * u * (1 + e) + e)).
  { intros l v e (Ll & Lf & Ld) Lv Le. pose proof (vdist_len (pad l) v) as (_ & K). destruct (step_app 1 ax1 w1 (o_signum d1) s1 l (1 + e)) as (X1 & X2 & X3); try assumption; try lia; try lra.
    split; [exact X1|]. split; [exact X2|]. pose proof (vdist_triangle (pad (row 1%nat ax1 d1 l)) (mv S2 (pad l)) (mv S2 v)) as T. rewrite (orth_dist S2) in T by exact O2.
    change (on_rows_from 1 (reflect_with_sign ax1 (o_signum d1)) l) with (row 1%nat ax1 d1 l) in X3. fold S2 in X3. lra. }
  assert (STEP2 : forall l v e, qr_col l v e -> vlen v = 1 -> 0 <= e <= 0.25 -> qr_col (row 2%nat ax2 d2 l) (mv S3 v) (534 * u * (1 + e) + e)).
  { intros l v e (Ll & Lf & Ld) Lv Le. pose proof (vdist_len (pad l) v) as (_ & K). destruct (step_app 2 ax2 w2 (o_signum d2) s2 l (1 + e)) as (X1 & X2 & X3); try assumption; try lia; try lra.
    split; [exact X1|]. split; [exact X2|]. pose proof (vdist_triangle (pad (row 2%nat ax2 d2 l)) (mv S3 (pad l)) (mv S3 v)) as T. rewrite (orth_dist S3) in T by exact O3.
    change (on_rows_from 2 (reflect_with_sign ax2 (o_signum d2)) l) with (row 2%nat ax2 d2 l) in X3. fold S3 in X3. lra. }
  assert (Q0 : qr_col [o; z; z] (mkV3 1 0 0) 0) by (split; [reflexivity|]; split; [exact U1|]; rewrite V1, vdist_0; apply Rle_refl).
  assert (Q1 : qr_col [z; o; z] (mkV3 0 1 0) 0) by (split; [reflexivity|]; split; [exact U2|]; rewrite V2, vdist_0; apply Rle_refl).
  assert (Q2 : qr_col [z; z; o] (mkV3 0 0 1) 0) by (split; [reflexivity|]; split; [exact U3|]; rewrite V3, vdist_0; apply Rle_refl).
  assert (WEAK : forall l v e e', qr_col l v e -> e <= e' -> qr_col l v e') by (intros l v e e' (X1 & X2 & X3) L; split; [exact X1|]; split; [exact X2|lra]).
  apply (STEP0 _ _ 0) in Q0; [|assumption|lra].
  apply (STEP1 _ _ 0) in Q1; [|assumption|lra]. apply (WEAK _ _ _ (534 * u)) in Q1; [|lra]. apply (STEP0 _ _ (534 * u)) in Q1; [|rewrite orthogonal_len; assumption|lra].
  apply (STEP2 _ _ 0) in Q2; [|assumption|lra]. apply (WEAK _ _ _ (534 * u)) in Q2; [|lra]. apply (STEP1 _ _ (534 * u)) in Q2; [|rewrite orthogonal_len; assumption|lra].
  apply (WEAK _ _ _ (1125.1 * u)) in Q2; [|lra]. apply (STEP0 _ _ (1125.1 * u)) in Q2; [|rewrite !orthogonal_len; assumption|lra].
  split; [|split; [|split]].
  - apply qr_col_nth. cbn [nth]. replace (mcol0 (mm (mm S1 S2) S3)) with (mv S1 (mkV3 1 0 0)); [apply (WEAK _ _ _ _ Q0); lra|].
    rewrite mcol0_mv, !mv_mm, F3, F2. reflexivity.
  - apply qr_col_nth. cbn [nth]. replace (mcol1 (mm (mm S1 S2) S3)) with (mv S1 (mv S2 (mkV3 0 1 0))); [apply (WEAK _ _ _ _ Q1); lra|].
    rewrite mcol1_mv, !mv_mm, F3. reflexivity.
  - apply qr_col_nth. cbn [nth]. replace (mcol2 (mm (mm S1 S2) S3)) with (mv S1 (mv S2 (mv S3 (mkV3 0 0 1)))); [apply (WEAK _ _ _ _ Q2); lra|].
    rewrite mcol2_mv, !mv_mm. reflexivity.
  - destruct P08 as (r0 & G0 & H0 & _). destruct P18 as (r1 & G1 & H1 & _). destruct P28 as (r2 & G2 & H2 & _).
    destruct (fl_zero' prec emax Hp He fsin fcos) as (Z1 & Z2). rewrite !WT, P07, F2, F3.
    assert (R0 : fcol0 (qr_r (mkQR [ax0; firstn 1 b1 ++ ax1; firstn 2 c2 ++ ax2] [d0; d1; d2])) = [o_abs d0; z; z]) by reflexivity.
    assert (R1 : fcol1 (qr_r (mkQR [ax0; firstn 1 b1 ++ ax1; firstn 2 c2 ++ ax2] [d0; d1; d2])) = [nth 0 b1 z; o_abs d1; z]).
    { clearbody b1. destruct b1 as [|x [|y [|t [|t2 b1]]]]; try discriminate. reflexivity. }
    assert (R2 : fcol2 (qr_r (mkQR [ax0; firstn 1 b1 ++ ax1; firstn 2 c2 ++ ax2] [d0; d1; d2])) = [nth 0 c2 z; nth 1 c2 z; o_abs d2]).
    { clearbody c2. destruct c2 as [|x [|y [|t [|t2 c2]]]]; try discriminate. reflexivity. }
    rewrite R0, R1, R2.
    pose proof (nth_fin prec emax Hp He fsin fcos b1 0 b1F) as (K1 & _). pose proof (nth_fin prec emax Hp He fsin fcos c2 0 c2F) as (K2 & _). pose proof (nth_fin prec emax Hp He fsin fcos c2 1 c2F) as (K3 & _).
    assert (PD : forall n r, 0 < n -> Rabs (r - n) <= 4 * u * n -> 0 < r).
    { intros n r Hn Hr. apply Rabs_le_inv in Hr. assert (4 * u * n <= 0.5 * n) by nra. lra. }
    assert (un1 : u * n1 <= 1.107 * (u * vlen B)) by (replace (1.107 * (u * vlen B)) with (u * (1.107 * vlen B)) by ring; apply Rmult_le_compat_l; lra).
    assert (un2 : u * n2 <= 1.23 * (u * vlen C)) by (replace (1.23 * (u * vlen C)) with (u * (1.23 * vlen C)) by ring; apply Rmult_le_compat_l; lra).
    split; [|split; [|split; [|split; [|split; [|split]]]]].
    + split; [reflexivity|]. split; [unfold FloatQRProofs.lfin; repeat (apply Forall_cons; [assumption || apply G0|]); apply Forall_nil|].
      replace (pad [o_abs d0; z; z]) with (mkV3 r0 0 0); [rewrite axis_dist; lra|]. unfold FloatQRProofs.pad, FloatQRProofs.e_. cbn [nth]. unfold z. rewrite Z2. destruct G0 as (_ & ->). reflexivity.
    + split; [reflexivity|]. split; [unfold FloatQRProofs.lfin; repeat (apply Forall_cons; [assumption || apply G1|]); apply Forall_nil|].
      assert (PE : pad [nth 0 b1 z; o_abs d1; z] = mkV3 (e_ b1 0) r1 0).
      { unfold FloatQRProofs.pad, FloatQRProofs.e_. cbn [nth]. unfold z. rewrite Z2. destruct G1 as (_ & ->). reflexivity. }
      rewrite PE. pose proof (vdist_triangle (mkV3 (e_ b1 0) r1 0) (mkV3 (e_ b1 0) n1 0) (mv S3 (mv S2 (mv S1 B)))) as T. rewrite axis_dist1 in T.
      pose proof (orth_dist S3 (mkV3 (e_ b1 0) n1 0) (mv S2 (mv S1 B)) O3) as T2. rewrite F3, (vdist_sym (mkV3 (e_ b1 0) n1 0) (mv S2 _)) in T2. lra.
    + split; [reflexivity|]. split; [unfold FloatQRProofs.lfin; repeat (apply Forall_cons; [assumption || apply G2|]); apply Forall_nil|].
      assert (PE : pad [nth 0 c2 z; nth 1 c2 z; o_abs d2] = mkV3 (e_ c2 0) (e_ c2 1) r2).
      { unfold FloatQRProofs.pad, FloatQRProofs.e_. cbn [nth]. destruct G2 as (_ & ->). reflexivity. }
      rewrite PE. pose proof (vdist_triangle (mkV3 (e_ c2 0) (e_ c2 1) r2) (mv S3 (pad c2)) (mv S3 (mv S2 (mv S1 C)))) as T.
      rewrite (orth_dist S3) in T by exact O3. rewrite P27 in T. cbn [FloatQRProofs.pad vx vy] in T. rewrite axis_dist2 in T. lra.
    + change (0 < B2R (o_abs d0)). destruct G0 as (_ & ->). apply (PD (vlen A)); assumption.
    + change (0 < B2R (o_abs d1)). destruct G1 as (_ & ->). apply (PD n1); [lra|assumption].
    + change (0 < B2R (o_abs d2)). destruct G2 as (_ & ->). apply (PD n2); [lra|assumption].
    + repeat split.
Qed.
End QR.
