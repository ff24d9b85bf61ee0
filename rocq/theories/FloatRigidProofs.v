(** * FloatRigidProofs.v - rounding errors of the conversions between world and camera (C67-C69) *)

From Coq Require Import ZArith Reals List Bool Lra Lia Psatz.
From Flocq Require Import Core BinarySingleNaN.
From Verif Require Import Scalar Linalg Bundles Extrinsics Rows Spec SpecFloatErr RealBase VecLemmas ExtrinsicsProofs FloatBase FloatRound FloatErrProofs FloatApprox.
Import ListNotations.

(** ** Sizes of rotated vectors *)
Local Open Scope R_scope.
Definition vle (M : R) (v : V3 R) : Prop := Rabs (vx v) <= M /\ Rabs (vy v) <= M /\ Rabs (vz v) <= M.
Lemma abs_sq a M : Rabs a <= M -> a * a <= M * M.
Proof. intros H. pose proof (Rabs_pos a). 
  assert (a * a = Rabs a * Rabs a) as -> by (rewrite <- Rabs_mult, Rabs_pos_eq; nra). nra. Qed.
Lemma sq_abs a M : 0 <= M -> a * a <= M * M -> Rabs a <= M.
Proof. intros H L. apply Rabs_le. split; nra. Qed.
Lemma orth_vle m v M : orthogonal m -> vle M v -> vle (2 * M) (mv m v).
Proof.
  intros O (A & B & C). pose proof (orthogonal_dot m v v O) as D. unfold vdot in D.
  pose proof (Rabs_pos (vx v)). apply abs_sq in A as A', B as B', C as C'.
  set (w := mv m v) in *. repeat split; apply sq_abs; nra.
Qed.
Lemma vle_vsub M N a b : vle M a -> vle N b -> vle (M + N) (vsub a b).
Proof.
  intros (A & B & C) (A' & B' & C'). unfold vsub, Rminus. repeat split; cbn; apply tri; auto; now rewrite Rabs_Ropp.
Qed.
Lemma vle_vadd M N a b : vle M a -> vle N b -> vle (M + N) (vadd a b).
Proof. intros (A & B & C) (A' & B' & C'). unfold vadd. repeat split; cbn; apply tri; auto. Qed.
Lemma vle_vopp M a : vle M a -> vle M (vopp a).
Proof. intros (A & B & C). unfold vopp. repeat split; cbn; now rewrite Rabs_Ropp. Qed.
Lemma vle_mono M N a : vle M a -> M <= N -> vle N a.
Proof. intros (A & B & C) L. repeat split; lra. Qed.
Lemma unit_le_1 q : unit_quat q -> Rabs (qi q) <= 1 /\ Rabs (qj q) <= 1 /\ Rabs (qk q) <= 1 /\ Rabs (qw q) <= 1.
Proof. unfold unit_quat, qnorm2. intros U. repeat split; apply sq_abs; nra. Qed.
Lemma sq_nn a : 0 <= a * a.
Proof. nra. Qed.
Lemma rotm_le_1 q : unit_quat q -> let m := rotm q in
  (Rabs (m00 m) <= 1 /\ Rabs (m01 m) <= 1 /\ Rabs (m02 m) <= 1) /\
  (Rabs (m10 m) <= 1 /\ Rabs (m11 m) <= 1 /\ Rabs (m12 m) <= 1) /\
  (Rabs (m20 m) <= 1 /\ Rabs (m21 m) <= 1 /\ Rabs (m22 m) <= 1).
Proof.
  intros U m. destruct (rotm_orthogonal q U) as (_ & O). fold m in O.
  clearbody m. destruct m as [a b c d e f g h i]. apply (f_equal (fun x => (m00 x, m11 x, m22 x))) in O. cbn in O. injection O as O0 O1 O2.
  cbv [vdot mtr mrow0 mrow1 mrow2 mcol0 mcol1 mcol2 vx vy vz m00 m01 m02 m10 m11 m12 m20 m21 m22] in O0, O1, O2 |- *.
  pose proof (sq_nn a); pose proof (sq_nn b); pose proof (sq_nn c);
  pose proof (sq_nn d); pose proof (sq_nn e); pose proof (sq_nn f);
  pose proof (sq_nn g); pose proof (sq_nn h); pose proof (sq_nn i).
  repeat split; apply sq_abs; lra.
Qed.

Section Rigid.
Variables (prec emax : Z) (Hp : Prec_gt_0 prec) (He : Prec_lt_emax prec emax).
Variables fsin fcos : binary_float prec emax -> binary_float prec emax.
Local Notation F := (binary_float prec emax).
Local Hint Extern 0 (Ops (binary_float prec emax)) =>
  exact (B_ops prec emax Hp He fsin fcos) : typeclass_instances.
(** the unit in which errors are counted *)
Variable u : R.
Local Notation big := (bpow radix2 emax).
Local Notation tiny := (bpow radix2 (2 - emax)).
Local Notation flr := (fl prec emax).
Local Instance fexp_valid : Valid_exp (SpecFloat.fexp prec emax) := fexp_correct prec emax Hp.
Local Notation app := (app prec emax u).
Hypotheses (UR : bpow radix2 (- prec) <= u) (U11 : u <= / 2048) (E17 : (17 <= emax)%Z).
Local Notation u_pos := (ud_pos prec u UR).
Local Notation u11 := U11.
Local Notation tiny1 := (tiny_le_1 emax E17).

Lemma fl_two : flr o_two 2.
Proof.
  assert (H : 2 = IZR 2 * bpow radix2 0) by (cbn; lra). rewrite H at 1.
  apply (fl_lit prec emax Hp He fsin fcos 2 0); rewrite <- H; change 2 with (bpow radix2 1).
  - apply generic_format_bpow. unfold SpecFloat.fexp, SpecFloat.emin. pose proof He as E. pose proof Hp as E1. unfold Prec_lt_emax in E. unfold Prec_gt_0 in E1. lia.
  - rewrite Rabs_pos_eq by apply bpow_ge_0. apply bpow_lt. lia.
Qed.

Lemma big17 : 131072 <= big.
Proof. replace 131072 with (bpow radix2 17) by (cbn; lra). apply bpow_le, E17. Qed.

(** ** Rotation of a vector by a quaternion *)
Section Rot.
Variables (qh : Quat F) (q : Quat R).
Hypotheses (U : unit_quat q) (N : quat_near (8 * u) qh q).

Lemma q_apps : app (qi qh) (qi q) 1 8 /\ app (qj qh) (qj q) 1 8 /\ app (qk qh) (qk q) 1 8 /\ app (qw qh) (qw q) 1 8.
Proof.
  destruct (unit_le_1 q U) as (A & B & C & D), N as (NA & NB & NC & ND).
  repeat split; eapply near_app; eauto; lra.
Qed.

Section V.
Variables (v : V3 F) (M : R).
Hypotheses (V : vec_sized M v) (M1 : 1 <= M) (MB : 64 * M < big).
Lemma v_apps : app (vx v) (B2R (vx v)) M 0 /\ app (vy v) (B2R (vy v)) M 0 /\ app (vz v) (B2R (vz v)) M 0.
Proof.
  destruct V as ((A & A1 & A2) & (B & B1 & B2) & (C & C1 & C2)).
  repeat split; apply app_exact; try assumption; split; auto.
Qed.
Ltac side := pose proof tiny1; lra.
(** [a1 * b1 - a2 * b2] *)
Lemma sub_prod x1 y1 x2 y2 a1 b1 a2 b2 W k2 k' : app x1 a1 1 8 -> app y1 b1 W k2 -> app x2 a2 1 8 -> app y2 b2 W k2 ->
  1 <= W -> 8 * W < big -> 0 <= k2 <= 100 -> k2 * (1 + 6/1000) + 10.02 <= k' ->
  app (o_sub (o_mul x1 y1) (o_mul x2 y2)) (a1 * b1 - a2 * b2) (2 * W) k'.
Proof.
  intros A1 B1 A2 B2 W1 WB K2 K'. pose proof tiny1.
  pose (km := 8 + k2 + 8 * k2 / 2048 + (1 + 8 / 2048) * (1 + k2 / 2048)).
  assert (KM : 0 <= km <= 1000) by (unfold km; lra).
  assert (X1 : app (o_mul x1 y1) (a1 * b1) (1 * W) km).
  { eapply app_mul; try eassumption; try lra; try (unfold km; lra). }
  assert (X2 : app (o_mul x2 y2) (a2 * b2) (1 * W) km).
  { eapply app_mul; try eassumption; try lra; try (unfold km; lra). }
  replace (2 * W) with (1 * W + 1 * W) by ring.
  eapply app_sub with (k := km); try eassumption; try lra. unfold km. lra.
Qed.

Lemma rot_apps : let w := mv (rotm q) (vreal v) in let r := q_rotate qh v in
  app (vx r) (vx w) (13 * M) 23.16 /\ app (vy r) (vy w) (13 * M) 23.16 /\ app (vz r) (vz w) (13 * M) 23.16.
Proof.
  destruct q_apps as (QI & QJ & QK & QW). destruct v_apps as (VX & VY & VZ). pose proof tiny1 as T1.
  set (x := B2R (vx v)) in *. set (y := B2R (vy v)) in *. set (z := B2R (vz v)) in *.
  unfold q_rotate, v3_add, v3_scale, v3_cross, q_vec. cbn [vx vy vz].
  assert (two : app o_two 2 2 0) by (apply app_exact; [assumption..|apply fl_two|rewrite Rabs_pos_eq; lra]).
  assert (T : forall x1 y1 x2 y2 a1 b1 a2 b2, app x1 a1 1 8 -> app y1 b1 M 0 -> app x2 a2 1 8 -> app y2 b2 M 0 ->
     app (o_mul (o_sub (o_mul x1 y1) (o_mul x2 y2)) o_two) ((a1 * b1 - a2 * b2) * 2) (4 * M) 11.03).
  { intros x1 y1 x2 y2 a1 b1 a2 b2 A1 B1 A2 B2. replace (4 * M) with ((2 * M) * 2) by ring.
    eapply app_mul; [assumption..|eapply sub_prod with (k' := 10.02); try eassumption; lra|exact two|lra|lra|lra|lra|lra]. }
  pose proof (T _ _ _ _ _ _ _ _ QJ VZ QK VY) as TX.
  pose proof (T _ _ _ _ _ _ _ _ QK VX QI VZ) as TY.
  pose proof (T _ _ _ _ _ _ _ _ QI VY QJ VX) as TZ.
  set (tx := o_mul (o_sub (o_mul (qj qh) (vz v)) (o_mul (qk qh) (vy v))) o_two) in *.
  set (ty := o_mul (o_sub (o_mul (qk qh) (vx v)) (o_mul (qi qh) (vz v))) o_two) in *.
  set (tz := o_mul (o_sub (o_mul (qi qh) (vy v)) (o_mul (qj qh) (vx v))) o_two) in *.
  assert (G : forall t0 x1 t1 x2 t2 vv b0 a1 b1 a2 b2 c,
     app t0 b0 (4 * M) 11.03 -> app x1 a1 1 8 -> app t1 b1 (4 * M) 11.03 -> app x2 a2 1 8 -> app t2 b2 (4 * M) 11.03 ->
     app vv c M 0 ->
     app (o_add (o_add (o_mul t0 (qw qh)) (o_sub (o_mul x1 t1) (o_mul x2 t2))) vv)
         (b0 * qw q + (a1 * b1 - a2 * b2) + c) (13 * M) 23.16).
  { intros t0 x1 t1 x2 t2 vv b0 a1 b1 a2 b2 c T0 A1 B1 A2 B2 CC.
    assert (S1 : app (o_mul t0 (qw qh)) (b0 * qw q) (4 * M * 1) 20.1).
    { eapply app_mul; try eassumption; lra. }
    assert (S2 : app (o_sub (o_mul x1 t1) (o_mul x2 t2)) (a1 * b1 - a2 * b2) (2 * (4 * M)) 21.12).
    { eapply sub_prod; try eassumption; lra. }
    assert (S3 : app (o_add (o_mul t0 (qw qh)) (o_sub (o_mul x1 t1) (o_mul x2 t2))) (b0 * qw q + (a1 * b1 - a2 * b2))
              (4 * M * 1 + 2 * (4 * M)) 22.14).
    { eapply app_add with (k := 21.12); try eassumption; lra. }
    replace (13 * M) with (4 * M * 1 + 2 * (4 * M) + M) by ring.
    eapply app_add with (k := 22.14); try eassumption; lra. }
  unfold mv, rotm, vreal. cbn [vx vy vz m00 m01 m02 m10 m11 m12 m20 m21 m22]. fold x y z.
  split; [|split].
  - eapply app_eq; [apply (G _ _ _ _ _ _ _ _ _ _ _ _ TX QJ TZ QK TY VX)|]. ring.
  - eapply app_eq; [apply (G _ _ _ _ _ _ _ _ _ _ _ _ TY QK TX QI TZ VY)|]. ring.
  - eapply app_eq; [apply (G _ _ _ _ _ _ _ _ _ _ _ _ TZ QI TY QJ TX VZ)|]. ring.
Qed.
Lemma rot_near : vec_near (302 * u * M) (q_rotate qh v) (mv (rotm q) (vreal v)).
Proof.
  destruct rot_apps as (A & B & C). pose proof u_pos.
  assert (23.16 * u * (13 * M) <= 302 * u * M) by nra.
  split; [|split]; eapply app_near; eassumption.
Qed.
End V.

(** the rotation matrix *)
Lemma rotmat_apps : let m := rotm q in let r := q_to_rotation_matrix qh in
  (app (m00 r) (m00 m) 1 80.4 /\ app (m01 r) (m01 m) 1 80.4 /\ app (m02 r) (m02 m) 1 80.4) /\
  (app (m10 r) (m10 m) 1 80.4 /\ app (m11 r) (m11 m) 1 80.4 /\ app (m12 r) (m12 m) 1 80.4) /\
  (app (m20 r) (m20 m) 1 80.4 /\ app (m21 r) (m21 m) 1 80.4 /\ app (m22 r) (m22 m) 1 80.4).
Proof.
  destruct q_apps as (QI & QJ & QK & QW). pose proof tiny1 as T1. pose proof big17 as B17.
  assert (two : app o_two 2 2 0) by (apply app_exact; [assumption..|apply fl_two|rewrite Rabs_pos_eq; lra]).
  assert (P : forall x y a b, app x a 1 8 -> app y b 1 8 -> app (o_mul x y) (a * b) 1 17.05).
  { intros x y a b A B. replace 1 with (1 * 1) by ring. eapply app_mul; try eassumption; lra. }
  assert (P2 : forall x y a b, app x a 1 8 -> app y b 1 8 -> app (o_mul (o_mul x y) o_two) (a * b * 2) 2 18.06).
  { intros x y a b A B. replace 2 with (1 * 2) at 2 by ring.
    eapply app_mul; [assumption..|apply P; eassumption|exact two|lra|lra|lra|lra|lra]. }
  assert (S : forall x y a b, app x a 2 18.06 -> app y b 2 18.06 -> app (o_sub x y) (a - b) 4 20.1).
  { intros x y a b A B. replace 4 with (2 + 2) by ring. eapply app_sub with (k := 18.06); try eassumption; lra. }
  assert (A : forall x y a b, app x a 2 18.06 -> app y b 2 18.06 -> app (o_add x y) (a + b) 4 20.1).
  { intros x y a b A B. replace 4 with (2 + 2) by ring. eapply app_add with (k := 18.06); try eassumption; lra. }
  assert (D1 : forall x y a b, app x a 1 17.05 -> app y b 1 17.05 -> app (o_add x y) (a + b) 2 18.06).
  { intros x y a b X Y. replace 2 with (1 + 1) by ring. eapply app_add with (k := 17.05); try eassumption; lra. }
  assert (D1' : forall x y a b, app x a 1 17.05 -> app y b 1 17.05 -> app (o_sub x y) (a - b) 2 18.06).
  { intros x y a b X Y. replace 2 with (1 + 1) by ring. eapply app_sub with (k := 17.05); try eassumption; lra. }
  assert (D2 : forall x y a b, app x a 2 18.06 -> app y b 1 17.05 -> app (o_add x y) (a + b) 3 19.07).
  { intros x y a b X Y. replace 3 with (2 + 1) by ring. eapply app_add with (k := 18.06); try eassumption; lra. }
  assert (D2' : forall x y a b, app x a 2 18.06 -> app y b 1 17.05 -> app (o_sub x y) (a - b) 3 19.07).
  { intros x y a b X Y. replace 3 with (2 + 1) by ring. eapply app_sub with (k := 18.06); try eassumption; lra. }
  assert (D3 : forall x y a b, app x a 3 19.07 -> app y b 1 17.05 -> app (o_add x y) (a + b) 4 20.1).
  { intros x y a b X Y. replace 4 with (3 + 1) by ring. eapply app_add with (k := 19.07); try eassumption; lra. }
  assert (D3' : forall x y a b, app x a 3 19.07 -> app y b 1 17.05 -> app (o_sub x y) (a - b) 4 20.1).
  { intros x y a b X Y. replace 4 with (3 + 1) by ring. eapply app_sub with (k := 19.07); try eassumption; lra. }
  assert (N2 : qi q * qi q + qj q * qj q + qk q * qk q + qw q * qw q = 1) by (revert U; unfold unit_quat, qnorm2; lra).
  intros m r. destruct (rotm_le_1 q U) as ((L0 & L1 & L2) & (L3 & L4 & L5) & (L6 & L7 & L8)).
  subst m r. unfold q_to_rotation_matrix.
  cbn [m00 m01 m02 m10 m11 m12 m20 m21 m22].
  assert (G : forall x a b, app x a 4 20.1 -> a = b -> Rabs b <= 1 -> app x b 1 80.4).
  { intros x a b X <- L. eapply app_weak; [assumption..|exact X|exact L|lra]. }
  repeat split.
  - eapply G; [apply D3'; [apply D2'; [apply D1|]|]; apply P; eassumption| |assumption]. unfold rotm; cbn [m00]; lra.
  - eapply G; [apply S; apply P2; eassumption| |assumption]. unfold rotm; cbn [m01]; ring.
  - eapply G; [apply A; apply P2; eassumption| |assumption]. unfold rotm; cbn [m02]; ring.
  - eapply G; [apply A; apply P2; eassumption| |assumption]. unfold rotm; cbn [m10]; ring.
  - eapply G; [apply D3'; [apply D2; [apply D1'|]|]; apply P; eassumption| |assumption]. unfold rotm; cbn [m11]; lra.
  - eapply G; [apply S; apply P2; eassumption| |assumption]. unfold rotm; cbn [m12]; ring.
  - eapply G; [apply S; apply P2; eassumption| |assumption]. unfold rotm; cbn [m20]; ring.
  - eapply G; [apply A; apply P2; eassumption| |assumption]. unfold rotm; cbn [m21]; ring.
  - eapply G; [apply D3; [apply D2'; [apply D1'|]|]; apply P; eassumption| |assumption]. unfold rotm; cbn [m22]; lra.
Qed.

(** the translation *)
Lemma trans_near c M : vec_sized M c -> 1 <= M -> 64 * M < big ->
  vec_near (250.8 * u * M) (v3_neg (m33_mulv (q_to_rotation_matrix qh) c)) (vopp (mv (rotm q) (vreal c))).
Proof.
  intros C M1 MB. destruct (v_apps c M C) as (CX & CY & CZ). pose proof tiny1 as T1. pose proof u_pos.
  destruct rotmat_apps as ((L0 & L1 & L2) & (L3 & L4 & L5) & (L6 & L7 & L8)).
  assert (G : forall a b d a' b' d' x y z x' y' z', app a a' 1 80.4 -> app b b' 1 80.4 -> app d d' 1 80.4 ->
    app x x' M 0 -> app y y' M 0 -> app z z' M 0 ->
    near (250.8 * u * M) (o_neg (o_add (o_add (o_mul a x) (o_mul b y)) (o_mul d z))) (- (a' * x' + b' * y' + d' * z'))).
  { intros a b d a' b' d' x y z x' y' z' A B D X Y Z.
    assert (P : forall a x a' x', app a a' 1 80.4 -> app x x' M 0 -> app (o_mul a x) (a' * x') (1 * M) 81.45).
    { intros. eapply app_mul; try eassumption; lra. }
    apply (app_near prec emax u _ _ (1 * M + 1 * M + 1 * M) 83.55); [|nra].
    apply app_neg.
    eapply app_add with (k := 82.5) (k2 := 81.45); [assumption..|eapply app_add with (k := 81.45) (k' := 82.5); [assumption..|apply P; eassumption|apply P; eassumption|lra|lra|lra|lra|lra|lra]|apply P; eassumption|lra|lra|lra|lra|lra|lra]. }
  split; [|split]; apply G; assumption.
Qed.
End Rot.

(** ** Composing errors *)
Lemma near_sized e W (x : F) a : near e x a -> Rabs a <= W -> sized 0 (W + e) x.
Proof.
  intros (X & D) A. split; [exact X|]. split; [apply Rabs_pos|].
  replace (B2R x) with (a + (B2R x - a)) by ring. now apply tri.
Qed.
Lemma vec_near_sized e W (v : V3 F) w : vec_near e v w -> vle W w -> vec_sized (W + e) v.
Proof.
  intros (A & B & C) (A' & B' & C'). repeat split; try apply A; try apply B; try apply C; try apply Rabs_pos;
  eapply near_sized; eauto.
Qed.
Lemma vec_sized_weak M M' (v : V3 F) : vec_sized M v -> M <= M' -> vec_sized M' v.
Proof. intros ((A & A1 & A2) & (B & B1 & B2) & (C & C1 & C2)) L. repeat split; try assumption; lra. Qed.
Lemma vec_sized_neg M (v : V3 F) : vec_sized M v -> vec_sized M (v3_neg v).
Proof.
  intros ((A & A1 & A2) & (B & B1 & B2) & (C & C1 & C2)). 
  assert (G : forall x : F, is_finite x = true -> Rabs (B2R x) <= M -> sized 0 M (o_neg x)).
  { intros x X L. destruct (fl_neg prec emax Hp He fsin fcos x (B2R x) (conj X eq_refl)) as (N1 & N2).
    split; [exact N1|]. split; [apply Rabs_pos|]. now rewrite N2, Rabs_Ropp. }
  split; [|split]; apply G; assumption.
Qed.
Lemma vreal_neg (v : V3 F) : vreal (v3_neg v) = vopp (vreal v).
Proof. unfold vreal, v3_neg, vopp. cbn [vx vy vz]. f_equal; apply B2R_Bopp. Qed.
Lemma vec_near_vle e (v : V3 F) w : vec_near e v w -> vle e (vsub (vreal v) w).
Proof. intros ((A & A') & (B & B') & (C & C')). repeat split; cbn; assumption. Qed.
Lemma vec_sized_vle M (v : V3 F) : vec_sized M v -> vle M (vreal v).
Proof. intros ((A & A1 & A2) & (B & B1 & B2) & (C & C1 & C2)). repeat split; assumption. Qed.
(** an error against one vector and the distance of that vector from another *)
Lemma vec_near_trans e e' (v : V3 F) w w' : vec_near e v w -> vle e' (vsub w w') -> vec_near (e + e') v w'.
Proof.
  intros ((A & A') & (B & B') & (C & C')) (D & E & G). cbn in D, E, G.
  assert (T : forall a b c : R, a - c = (a - b) + (b - c)) by (intros; ring).
  split; [|split]; (split; [assumption|]).
  - rewrite (T _ (vx w)). now apply tri.
  - rewrite (T _ (vy w)). now apply tri.
  - rewrite (T _ (vz w)). now apply tri.
Qed.
Lemma rot_near2 (qh : Quat F) q (v : V3 F) w M e : unit_quat q -> quat_near (8 * u) qh q -> vec_sized M v -> 1 <= M -> 64 * M < big ->
  vec_near e v w -> vec_near (302 * u * M + 2 * e) (q_rotate qh v) (mv (rotm q) w).
Proof.
  intros U N V M1 MB E. eapply vec_near_trans; [apply rot_near; eassumption|].
  rewrite <- mv_vsub. apply orth_vle; [now apply rotm_orthogonal|]. now apply vec_near_vle.
Qed.
Lemma quat_near_inverse e (qh : Quat F) q : quat_near e qh q -> quat_near e (q_inverse qh) (q_inverse q).
Proof.
  intros (A & B & C & D).
  assert (G : forall (x : F) a, near e x a -> near e (o_neg x) (- a)).
  { intros x a (X & L). destruct (fl_neg prec emax Hp He fsin fcos x (B2R x) (conj X eq_refl)) as (N1 & N2).
    split; [exact N1|]. rewrite N2. replace (- B2R x - - a) with (- (B2R x - a)) by ring. now rewrite Rabs_Ropp. }
  unfold q_inverse. split; [|split; [|split]]; cbn [qi qj qk qw]; [apply (G _ _ A)|apply (G _ _ B)|apply (G _ _ C)|exact D].
Qed.
Lemma vec_add_near e1 e2 (a b : V3 F) (va vb : V3 R) W1 W2 : vec_near e1 a va -> vec_near e2 b vb ->
  vle W1 va -> vle W2 vb -> e1 <= 151 * u * W1 -> e2 <= 151 * u * W2 -> 1 <= W1 + W2 -> 4 * (W1 + W2) < big ->
  vec_near (152.1 * u * (W1 + W2)) (v3_add a b) (vadd va vb).
Proof.
  intros (A1 & A2 & A3) (B1 & B2 & B3) (C1 & C2 & C3) (D1 & D2 & D3) E1 E2 S1 S2. pose proof tiny1.
  assert (G : forall (x y : F) p q, near e1 x p -> near e2 y q -> Rabs p <= W1 -> Rabs q <= W2 ->
     near (152.1 * u * (W1 + W2)) (o_add x y) (p + q)).
  { intros x y p q X Y P Q. eapply app_near; [|apply Rle_refl].
    eapply app_add with (k := 151); [assumption..|eapply near_app; eassumption|eapply near_app; eassumption|lra|lra|lra|lra|lra|lra]. }
  split; [|split]; apply G; assumption.
Qed.

(** ** World to camera and back *)
Section Pose.
Variables (qh : Quat F) (q : Quat R) (c : V3 F) (M : R).
Hypotheses (U : unit_quat q) (N : quat_near (8 * u) qh q) (C : vec_sized M c) (M1 : 1 <= M) (MB : 512 * M < big).
Local Notation E := (from_rotation_and_camcenter qh c).
Local Notation w2c := (iso_transform_point (c_pose (e_cache E))).
Local Notation c2w := (iso_transform_point (c_pose_inv (e_cache E))).
Lemma uM : 0 < u * M. Proof. pose proof u_pos. nra. Qed.
Lemma uM' : u * M <= M / 2048. Proof. pose proof u_pos. pose proof u11. nra. Qed.
Lemma orth : orthogonal (rotm q). Proof. now apply rotm_orthogonal. Qed.
Lemma orth' : orthogonal (mtr (rotm q)). Proof. apply orthogonal_mtr, orth. Qed.

(** a point known up to [e], of size [M'] *)
Lemma w2c_near x w e M' W1 : vec_sized M' x -> 1 <= M' -> 64 * M' < big -> vec_near e x w ->
  302 * u * M' + 2 * e <= 151 * u * W1 -> vle W1 (mv (rotm q) w) -> 1 <= W1 -> 4 * (W1 + 2 * M) < big ->
  vec_near (152.1 * u * (W1 + 2 * M)) (w2c x) (to_camera q (vreal c) w).
Proof.
  intros X X1 XB XN L WL W11 WB. pose proof uM.
  assert (EQ : to_camera q (vreal c) w = vadd (mv (rotm q) w) (vopp (mv (rotm q) (vreal c)))).
  { unfold to_camera. rewrite mv_vsub. unfold vsub, vadd, vopp. cbn. f_equal; ring. }
  rewrite EQ. unfold iso_transform_point. cbn [from_rotation_and_camcenter e_cache c_pose iso_rot iso_trans].
  eapply vec_add_near.
  - apply rot_near2; eassumption.
  - apply trans_near; try eassumption. lra.
  - exact WL.
  - apply vle_vopp, orth_vle; [apply orth|]. now apply vec_sized_vle.
  - exact L.
  - nra.
  - lra.
  - exact WB.
Qed.
Lemma w2c_exact x : vec_sized M x -> vec_near (608.4 * u * M) (w2c x) (to_camera q (vreal c) (vreal x)).
Proof.
  intros X. pose proof uM.
  assert (XN : vec_near 0 x (vreal x)).
  { destruct X as ((A & _) & (B & _) & (D & _)). split; [|split]; (split; [assumption|]); cbn; rewrite Rminus_eq_0, Rabs_R0; lra. }
  eapply vec_near_weak; [apply w2c_near with (W1 := 2 * M) (e := 0) (M' := M); try eassumption; try lra|lra].
  apply orth_vle; [apply orth|]. now apply vec_sized_vle.
Qed.
(** the translation of the inverse pose *)
Lemma inv_trans_near : vec_near (1147 * u * M) (iso_trans (c_pose_inv (e_cache E))) (vreal c).
Proof.
  pose proof uM as UM. pose proof uM' as UM'.
  assert (T : vec_near (250.8 * u * M) (v3_neg (m33_mulv (q_to_rotation_matrix qh) c)) (vopp (mv (rotm q) (vreal c)))) by (apply trans_near; try eassumption; lra).
  cbn [from_rotation_and_camcenter e_cache c_pose_inv iso_inverse iso_rot iso_trans].
  set (t := v3_neg (m33_mulv (q_to_rotation_matrix qh) c)) in *.
  assert (TS : vec_sized (2.13 * M) t).
  { eapply vec_sized_weak; [eapply vec_near_sized; [exact T|apply vle_vopp, orth_vle; [apply orth|apply vec_sized_vle, C]]|lra]. }
  assert (TN : vec_near (250.8 * u * M) (v3_neg t) (mv (rotm q) (vreal c))).
  { destruct T as ((T1 & T1') & (T2 & T2') & (T3 & T3')).
    assert (G : forall (x : F) a, is_finite x = true -> Rabs (B2R x - - a) <= 250.8 * u * M -> near (250.8 * u * M) (o_neg x) a).
    { intros x a X L. destruct (fl_neg prec emax Hp He fsin fcos x (B2R x) (conj X eq_refl)) as (N1 & N2).
      split; [exact N1|]. rewrite N2. replace (- B2R x - a) with (- (B2R x - - a)) by ring. now rewrite Rabs_Ropp. }
    split; [|split]; apply G; assumption. }
  eapply vec_near_weak.
  - rewrite <- (orthogonal_inv_l (rotm q) (vreal c)) by apply orth. rewrite <- rotm_inverse.
    apply rot_near2 with (M := 2.13 * M); [now apply unit_quat_inverse|now apply quat_near_inverse|now apply vec_sized_neg|lra|lra|exact TN].
  - lra.
Qed.
Lemma c2w_near y w e M' W1 : vec_sized M' y -> 1 <= M' -> 64 * M' < big -> vec_near e y w ->
  302 * u * M' + 2 * e <= 151 * u * W1 -> vle W1 (mv (mtr (rotm q)) w) -> 1 <= W1 -> 4 * (W1 + 7.6 * M) < big ->
  vec_near (152.1 * u * (W1 + 7.6 * M)) (c2w y) (to_world q (vreal c) w).
Proof.
  intros X X1 XB XN L WL W11 WB. pose proof uM. unfold iso_transform_point, to_world.
  eapply vec_add_near.
  - cbn [from_rotation_and_camcenter e_cache c_pose_inv iso_inverse iso_rot iso_trans].
    rewrite <- rotm_inverse. apply rot_near2; [now apply unit_quat_inverse|now apply quat_near_inverse|eassumption..].
  - apply inv_trans_near.
  - exact WL.
  - apply vle_mono with M; [now apply vec_sized_vle|lra].
  - exact L.
  - nra.
  - lra.
  - exact WB.
Qed.
Lemma c2w_exact y : vec_sized M y -> vec_near (1461 * u * M) (c2w y) (to_world q (vreal c) (vreal y)).
Proof.
  intros X. pose proof uM.
  assert (XN : vec_near 0 y (vreal y)).
  { destruct X as ((A & _) & (B & _) & (D & _)). split; [|split]; (split; [assumption|]); cbn; rewrite Rminus_eq_0, Rabs_R0; lra. }
  eapply vec_near_weak; [apply c2w_near with (W1 := 2 * M) (e := 0) (M' := M); try eassumption; try lra|lra].
  apply orth_vle; [apply orth'|]. now apply vec_sized_vle.
Qed.
Lemma w2c_c2w x : vec_sized M x -> vec_near (3700 * u * M) (c2w (w2c x)) (vreal x).
Proof.
  intros X. pose proof uM as UM. pose proof uM' as UM'. pose proof (w2c_exact x X) as Y.
  rewrite <- (to_world_to_camera q (vreal c) (vreal x) U).
  assert (L : vle (4 * M) (to_camera q (vreal c) (vreal x))).
  { apply vle_mono with (2 * (2 * M)); [|lra]. apply orth_vle; [apply orth|]. replace (2 * M) with (M + M) by ring.
    apply vle_vsub; now apply vec_sized_vle. }
  assert (S : vec_sized (4.3 * M) (w2c x)).
  { eapply vec_sized_weak; [eapply vec_near_sized; [exact Y|exact L]|lra]. }
  eapply vec_near_weak; [eapply c2w_near with (W1 := 16.7 * M); [exact S|lra|lra|exact Y|lra| |lra|lra]|lra].
  unfold to_camera. rewrite (orthogonal_inv_l (rotm q)) by apply orth.
  apply vle_mono with (M + M); [|lra]. apply vle_vsub; now apply vec_sized_vle.
Qed.
Lemma c2w_w2c y : vec_sized M y -> vec_near (4400 * u * M) (w2c (c2w y)) (vreal y).
Proof.
  intros X. pose proof uM as UM. pose proof uM' as UM'. pose proof (c2w_exact y X) as Y.
  rewrite <- (to_camera_to_world q (vreal c) (vreal y) U).
  assert (L : vle (3 * M) (to_world q (vreal c) (vreal y))).
  { apply vle_mono with (2 * M + M); [|lra]. apply vle_vadd; [apply orth_vle; [apply orth'|]|]; now apply vec_sized_vle. }
  assert (S : vec_sized (3.72 * M) (c2w y)).
  { eapply vec_sized_weak; [eapply vec_near_sized; [exact Y|exact L]|lra]. }
  eapply vec_near_weak; [eapply w2c_near with (W1 := 26.9 * M); [exact S|lra|lra|exact Y|lra| |lra|lra]|lra].
  apply vle_mono with (2 * (3 * M)); [|lra]. apply orth_vle; [apply orth|exact L].
Qed.
End Pose.
End Rigid.
