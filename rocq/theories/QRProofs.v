(** * QRProofs.v - nalgebra's Householder QR over the reals *)

From Coq Require Import Reals List Lra Psatz Lia.
From Verif Require Import Scalar Linalg Householder Spec RealBase VecLemmas FromViewProofs.
Import ListNotations.
Local Open Scope R_scope.

Fixpoint rdot (a b : list R) : R :=
  match a, b with x :: a', y :: b' => x * y + rdot a' b' | _, _ => 0 end.
Lemma dot_acc_R a : forall b acc, dot_acc acc a b = acc + rdot a b.
Proof.
  induction a as [|x a IH]; intros [|y b] acc; simpl; try ring. rewrite IH. ring.
Qed.
Lemma ldot_R (a b : list R) : ldot a b = rdot a b.
Proof. unfold ldot. rewrite dot_acc_R. cbn [o_zero R_ops]. ring. Qed.
Lemma rdot_div s a : forall b, rdot (map (fun x => x / s) a) b = rdot a b / s.
Proof. induction a as [|x a IH]; intros [|y b]; simpl; try (unfold Rdiv; ring). rewrite IH. unfold Rdiv; ring. Qed.
Lemma rdot_comm a : forall b, rdot a b = rdot b a.
Proof. induction a as [|x a IH]; intros [|y b]; simpl; auto. rewrite IH. ring. Qed.
Lemma rdot_self_nonneg a : 0 <= rdot a a.
Proof. induction a as [|x a IH]; simpl; [lra|]. nra. Qed.
Lemma rdot_self_0 a : rdot a a = 0 -> a = repeat 0 (length a).
Proof.
  induction a as [|x a IH]; simpl; auto. intros H. pose proof (rdot_self_nonneg a).
  assert (x = 0) by nra. f_equal; auto. apply IH. nra.
Qed.
Lemma rdot_repeat n : forall b, rdot (repeat 0 n) b = 0.
Proof. induction n; intros [|y b]; simpl; auto. rewrite IHn. ring. Qed.

Lemma reflect_R axis s : forall c, length c = length axis ->
  reflect_with_sign axis s c
  = map (fun xy => s * (snd xy - 2 * rdot axis c * fst xy)) (combine axis c).
Proof.
  intros c _. unfold reflect_with_sign. rewrite ldot_R, o_mtwo_R.
  cbn [o_zero o_mul o_add o_sub R_ops]. apply map_ext. intros [x y]; simpl. ring.
Qed.

Lemma signum_cases (r : R) : (o_signum r = 1 /\ 0 <= r) \/ (o_signum r = -1 /\ r < 0).
Proof. cbn [o_signum R_ops]. destruct (Rlt_dec r 0); [right|left]; split; auto; lra. Qed.

Lemma map_combine_id (n : nat) : forall c : list R, length c = n ->
  map (fun xy => 1 * (snd xy - 2 * 0 * fst xy)) (combine (repeat 0 n) c) = c.
Proof. induction n; intros [|y c] H; simpl in *; try discriminate; auto. f_equal; [ring|]. apply IHn. lia. Qed.

(** What the reflection axis does. *)
Lemma axis_spec c0 rest : exists axis r nz,
  reflection_axis_mut (c0 :: rest) = (axis, r, nz) /\
  length axis = S (length rest) /\
  reflect_with_sign axis (o_signum r) (c0 :: rest) = Rabs r :: repeat 0 (length rest) /\
  ((nz = true /\ rdot axis axis = 1) \/
   (nz = false /\ axis = repeat 0 (S (length rest)) /\ o_signum r = 1)).
Proof.
  unfold reflection_axis_mut. rewrite ldot_R, o_two_R. unfold to_exp.
  cbn [o_zero o_one o_neg o_leb R_ops].
  set (N := rdot (c0 :: rest) (c0 :: rest)).
  assert (N0 : 0 <= N) by apply rdot_self_nonneg.
  set (n := sqrt N). assert (n0 : 0 <= n) by apply sqrt_pos.
  assert (nn : n * n = N) by (apply sqrt_sqrt; exact N0).
  assert (EN : N = c0 * c0 + rdot rest rest) by reflexivity.
  assert (G : exists m sg, (if Rleb 0 c0 then (c0, 1) else (- c0, - (1))) = (m, sg) /\
            0 <= m /\ sg * m = c0 /\ sg * sg = 1 /\ sg * c0 = m).
  { destruct (Rleb 0 c0) eqn:E.
    - apply Rleb_true in E. exists c0, 1. repeat split; lra.
    - apply Rleb_false in E. exists (- c0), (- (1)). repeat split; lra. }
  destruct G as (m & sg & -> & m0 & sm & ss & sc).
  cbn [o_mul o_add o_div o_sqrt o_eqb R_ops]. fold n.
  set (fac := (N + m * n) * 2).
  assert (fac0 : 0 <= fac) by (unfold fac; nra).
  set (col' := (c0 + sg * n) :: rest).
  assert (D1 : rdot col' col' = fac).
  { unfold col', fac. cbn [rdot]. replace (rdot rest rest) with (N - c0 * c0) by lra.
    replace ((c0 + sg * n) * (c0 + sg * n)) with (c0 * c0 + 2 * n * (sg * c0) + (sg * sg) * (n * n)) by ring.
    rewrite sc, ss, nn. ring. }
  assert (D2 : rdot col' (c0 :: rest) = fac / 2).
  { unfold col', fac. cbn [rdot]. replace (rdot rest rest) with (N - c0 * c0) by lra.
    replace ((c0 + sg * n) * c0) with (c0 * c0 + n * (sg * c0)) by ring. rewrite sc. field. }
  destruct (Reqb fac 0) eqn:E; cbn [negb].
  - apply Reqb_true in E. assert (NZ : N = 0) by (unfold fac in E; nra).
    assert (n = 0) by nra. replace (sg * n) with 0 by nra.
    unfold N in NZ. apply rdot_self_0 in NZ. cbn [length repeat] in NZ. injection NZ as Z1 Z2.
    assert (S1 : o_signum 0 = 1) by (destruct (signum_cases 0); [tauto|lra]).
    assert (EC : col' = repeat 0 (S (length rest))).
    { unfold col'. cbn [repeat]. rewrite <- Z2. f_equal. nra. }
    exists col', 0, false. split; [reflexivity|]. split; [reflexivity|]. rewrite S1. split.
    + rewrite reflect_R by reflexivity. rewrite EC, rdot_repeat, map_combine_id by reflexivity.
      now rewrite Z1, Rabs_R0, <- Z2.
    + right. repeat split. exact EC.
  - apply Reqb_false in E. assert (facp : 0 < fac) by lra.
    set (f := sqrt fac). assert (fp : 0 < f) by (apply sqrt_lt_R0; exact facp).
    assert (ff : f * f = fac) by (apply sqrt_sqrt; exact fac0).
    set (c1 := map (fun x => x / f) col').
    assert (L1 : rdot c1 c1 = 1).
    { unfold c1. rewrite rdot_div, rdot_comm, rdot_div, D1. rewrite <- ff. field. lra. }
    rewrite ldot_R, L1, sqrt_1.
    assert (M1 : map (fun x => x / 1) c1 = c1).
    { rewrite <- (map_id c1) at 2. apply map_ext. intros; field. }
    rewrite M1. do 3 eexists. split; [reflexivity|].
    assert (NP : 0 < n).
    { assert (n <> 0). { intros En. apply E. unfold fac. rewrite En in *. nra. } lra. }
    split; [unfold c1; now rewrite map_length|]. split.
    + rewrite reflect_R by (unfold c1; now rewrite map_length).
      unfold c1 at 1. rewrite rdot_div, D2.
      replace (2 * (fac / 2 / f)) with f by (rewrite <- ff; field; lra).
      unfold c1, col'. cbn [map combine fst snd].
      assert (SR : o_signum (- (sg * n)) * - (sg * n) = Rabs (- (sg * n))).
      { destruct (signum_cases (- (sg * n))) as [[-> H]|[-> H]]; [rewrite Rabs_right|rewrite Rabs_left]; lra. }
      f_equal.
      * etransitivity; [|exact SR]. field. lra.
      * generalize (o_signum (- (sg * n))). intros t. clearbody f. clear -fp.
        induction rest as [|x rest IH]; simpl; auto. f_equal; [field; lra|exact IH].
    + left. auto.
Qed.

(** The three factors. *)
Definition G0 (x y z s : R) : M33 R :=
  mkM33 (s * (1 - 2*x*x)) (s * (- 2*x*y)) (s * (- 2*x*z))
        (s * (- 2*x*y)) (s * (1 - 2*y*y)) (s * (- 2*y*z))
        (s * (- 2*x*z)) (s * (- 2*y*z)) (s * (1 - 2*z*z)).
Definition G1 (y z s : R) : M33 R :=
  mkM33 1 0 0
        0 (s * (1 - 2*y*y)) (s * (- 2*y*z))
        0 (s * (- 2*y*z)) (s * (1 - 2*z*z)).
Definition G2 (z s : R) : M33 R := mkM33 1 0 0 0 1 0 0 0 (s * (1 - 2*z*z)).
Lemma reflect3 x y z s a b c :
  reflect_with_sign [x; y; z] s [a; b; c]
  = let v := mv (G0 x y z s) (mkV3 a b c) in [vx v; vy v; vz v].
Proof. rewrite reflect_R by reflexivity. simpl. f_equal; [|f_equal; [|f_equal]]; unfold G0; ru_spec; ring. Qed.
Lemma reflect2 y z s b c :
  reflect_with_sign [y; z] s [b; c] = [s * (1 - 2*y*y) * b + s * (- 2*y*z) * c; s * (- 2*y*z) * b + s * (1 - 2*z*z) * c].
Proof. rewrite reflect_R by reflexivity. simpl. f_equal; [|f_equal]; ring. Qed.
Lemma reflect1 z s c : reflect_with_sign [z] s [c] = [s * (1 - 2*z*z) * c].
Proof. rewrite reflect_R by reflexivity. simpl. f_equal; ring. Qed.
Lemma G0_sq x y z s : s * s = 1 -> (x*x + y*y + z*z = 1 \/ (x = 0 /\ y = 0 /\ z = 0)) ->
  mm (G0 x y z s) (G0 x y z s) = mI.
Proof.
  intros S [H|(->&->&->)].
  - assert (S' : s ^ 2 = 1) by (rewrite <- S; ring). assert (X : x ^ 2 = 1 - y * y - z * z) by (rewrite <- H; ring).
    apply M33_eq; unfold G0; ru_spec; ring [S' X].
  - apply M33_eq; unfold G0; ru_spec; ring [S].
Qed.
Lemma G1_sq y z s : s * s = 1 -> (y*y + z*z = 1 \/ (y = 0 /\ z = 0)) -> mm (G1 y z s) (G1 y z s) = mI.
Proof.
  intros S [H|(->&->)].
  - assert (S' : s ^ 2 = 1) by (rewrite <- S; ring). assert (X : y ^ 2 = 1 - z * z) by (rewrite <- H; ring).
    apply M33_eq; unfold G1; ru_spec; ring [S' X].
  - apply M33_eq; unfold G1; ru_spec; ring [S].
Qed.
Lemma G2_sq z s : s * s = 1 -> (z*z = 1 \/ z = 0) -> mm (G2 z s) (G2 z s) = mI.
Proof.
  intros S [H| ->].
  - assert (S' : s ^ 2 = 1) by (rewrite <- S; ring). assert (X : z ^ 2 = 1) by (rewrite <- H; ring).
    apply M33_eq; unfold G2; ru_spec; ring [S' X].
  - apply M33_eq; unfold G2; ru_spec; ring [S].
Qed.
Lemma G1_mm y z s a b c e f h i :
  mm (G1 y z s) (mkM33 a b c 0 e f 0 h i)
  = mkM33 a b c
          0 (s * (1 - 2*y*y) * e + s * (- 2*y*z) * h) (s * (1 - 2*y*y) * f + s * (- 2*y*z) * i)
          0 (s * (- 2*y*z) * e + s * (1 - 2*z*z) * h) (s * (- 2*y*z) * f + s * (1 - 2*z*z) * i).
Proof. apply M33_eq; unfold G1; ru_spec; ring. Qed.
Lemma G1_mv y z s v :
  mv (G1 y z s) v
  = mkV3 (vx v) (s * (1 - 2*y*y) * vy v + s * (- 2*y*z) * vz v) (s * (- 2*y*z) * vy v + s * (1 - 2*z*z) * vz v).
Proof. destruct v; apply V3_eq; unfold G1; ru_spec; ring. Qed.
Lemma signum_sq (r : R) : o_signum r * o_signum r = 1.
Proof. destruct (signum_cases r) as [[-> _]|[-> _]]; ring. Qed.

Definition upper_nonneg (m : M33 R) : Prop :=
  m10 m = 0 /\ m20 m = 0 /\ m21 m = 0 /\ 0 <= m00 m /\ 0 <= m11 m /\ 0 <= m22 m.

Lemma list1 {A} (l : list A) : length l = 1%nat -> exists a, l = [a].
Proof. destruct l as [|a [|]]; simpl; try discriminate. now exists a. Qed.
Lemma list2 {A} (l : list A) : length l = 2%nat -> exists a b, l = [a; b].
Proof. destruct l as [|a [|b [|]]]; simpl; try discriminate. now exists a, b. Qed.
Lemma list3 {A} (l : list A) : length l = 3%nat -> exists a b c, l = [a; b; c].
Proof. destruct l as [|a [|b [|c [|]]]]; simpl; try discriminate. now exists a, b, c. Qed.

Lemma qr_factors (A : M33 R) : exists x0 y0 z0 s0 y1 z1 s1 z2 s2,
  mm (G0 x0 y0 z0 s0) (G0 x0 y0 z0 s0) = mI /\ mm (G1 y1 z1 s1) (G1 y1 z1 s1) = mI /\
  mm (G2 z2 s2) (G2 z2 s2) = mI /\
  let d := qr_new (cols_of_m33 A) in
  qr_q d = mm (G0 x0 y0 z0 s0) (mm (G1 y1 z1 s1) (G2 z2 s2)) /\
  qr_r d = mm (G2 z2 s2) (mm (G1 y1 z1 s1) (mm (G0 x0 y0 z0 s0) A)) /\
  upper_nonneg (qr_r d).
Proof.
  destruct A as [a00 a01 a02 a10 a11 a12 a20 a21 a22].
  (* first column *)
  destruct (axis_spec a00 [a10; a20]) as (ax0 & r0 & nz0 & E0 & L0 & F0 & O0).
  apply list3 in L0. destruct L0 as (x0 & y0 & z0 & ->).
  pose proof (signum_sq r0) as S0. set (s0 := o_signum r0) in *.
  set (g0 := G0 x0 y0 z0 s0).
  assert (Q0 : mm g0 g0 = mI).
  { apply G0_sq; [exact S0|]. destruct O0 as [[_ H]|(_ & H & _)]; [left; simpl in H; lra|right].
    simpl in H. injection H as -> -> ->. auto. }
  assert (B0 : forall c, length c = 3%nat ->
    (if nz0 then reflect_with_sign [x0; y0; z0] s0 c else c) = reflect_with_sign [x0; y0; z0] s0 c).
  { intros c Hc. destruct O0 as [[-> _]|(-> & H & S1)]; auto. rewrite H, S1.
    rewrite reflect_R by (rewrite repeat_length; exact Hc). rewrite rdot_repeat, map_combine_id; auto. }
  rewrite reflect3 in F0. fold g0 in F0. cbn [length repeat] in F0.
  set (b0 := mv g0 (mkV3 a00 a10 a20)) in *. cbn beta iota zeta in F0.
  set (b1 := mv g0 (mkV3 a01 a11 a21)). set (b2 := mv g0 (mkV3 a02 a12 a22)).
  assert (C0 : clear_column (cols_of_m33 (mkM33 a00 a01 a02 a10 a11 a12 a20 a21 a22)) 0
          = ([[x0; y0; z0]; [vx b1; vy b1; vz b1]; [vx b2; vy b2; vz b2]], r0)).
  { unfold clear_column, cols_of_m33. cbn [nth skipn m00 m01 m02 m10 m11 m12 m20 m21 m22].
    rewrite E0. cbn [map_cols Nat.eqb Nat.ltb Nat.leb andb]. fold s0. unfold on_rows_from. cbn [firstn skipn app].
    rewrite !B0 by reflexivity. now rewrite !reflect3. }
  (* second column *)
  destruct (axis_spec (vy b1) [vz b1]) as (ax1 & r1 & nz1 & E1 & L1 & F1 & O1).
  apply list2 in L1. destruct L1 as (y1 & z1 & ->).
  pose proof (signum_sq r1) as S1. set (s1 := o_signum r1) in *.
  set (g1 := G1 y1 z1 s1).
  assert (Q1 : mm g1 g1 = mI).
  { apply G1_sq; [exact S1|]. destruct O1 as [[_ H]|(_ & H & _)]; [left; simpl in H; lra|right].
    simpl in H. injection H as -> ->. auto. }
  assert (B1 : forall c, length c = 2%nat ->
    (if nz1 then reflect_with_sign [y1; z1] s1 c else c) = reflect_with_sign [y1; z1] s1 c).
  { intros c Hc. destruct O1 as [[-> _]|(-> & H & S)]; auto. rewrite H, S.
    rewrite reflect_R by (rewrite repeat_length; exact Hc). rewrite rdot_repeat, map_combine_id; auto. }
  rewrite reflect2 in F1. cbn [length repeat] in F1.
  set (c2 := mv g1 b2). set (c1 := mv g1 b1).
  assert (C1 : clear_column [[x0; y0; z0]; [vx b1; vy b1; vz b1]; [vx b2; vy b2; vz b2]] 1
          = ([[x0; y0; z0]; [vx b1; y1; z1]; [vx c2; vy c2; vz c2]], r1)).
  { unfold clear_column. cbn [nth skipn].
    rewrite E1. cbn [map_cols Nat.eqb Nat.ltb Nat.leb andb]. fold s1. unfold on_rows_from. cbn [firstn skipn app].
    assert (H : (if nz1 then vx b2 :: reflect_with_sign [y1; z1] s1 [vy b2; vz b2] else [vx b2; vy b2; vz b2])
                = vx b2 :: reflect_with_sign [y1; z1] s1 [vy b2; vz b2]).
    { rewrite <- (B1 [vy b2; vz b2]) by reflexivity. now destruct nz1. }
    rewrite H, reflect2. unfold c2, g1, G1. do 4 f_equal. f_equal; [|f_equal]; ru_spec; try ring. f_equal; ring. }
  (* third column *)
  destruct (axis_spec (vz c2) []) as (ax2 & r2 & nz2 & E2 & L2 & F2 & O2).
  apply list1 in L2. destruct L2 as (z2 & ->).
  pose proof (signum_sq r2) as S2. set (s2 := o_signum r2) in *.
  set (g2 := G2 z2 s2).
  assert (Q2 : mm g2 g2 = mI).
  { apply G2_sq; [exact S2|]. destruct O2 as [[_ H]|(_ & H & _)]; [left; simpl in H; lra|right].
    simpl in H. now injection H as ->. }
  rewrite reflect1 in F2. cbn [length repeat] in F2.
  assert (C2 : clear_column [[x0; y0; z0]; [vx b1; y1; z1]; [vx c2; vy c2; vz c2]] 2
          = ([[x0; y0; z0]; [vx b1; y1; z1]; [vx c2; vy c2; z2]], r2)).
  { unfold clear_column. cbn [nth skipn]. rewrite E2. reflexivity. }
  exists x0, y0, z0, s0, y1, z1, s1, z2, s2. fold g0 g1 g2.
  split; [exact Q0|]. split; [exact Q1|]. split; [exact Q2|].
  intros d.
  assert (ED : d = mkQR [[x0; y0; z0]; [vx b1; y1; z1]; [vx c2; vy c2; z2]] [r0; r1; r2]).
  { unfold d, qr_new. now rewrite C0, C1, C2. }
  clearbody d. subst d.
  pose proof (f_equal (fun l => nth 0 l 0) F0) as F01. pose proof (f_equal (fun l => nth 1 l 0) F0) as F02.
  pose proof (f_equal (fun l => nth 2 l 0) F0) as F03. pose proof (f_equal (fun l => nth 0 l 0) F1) as F11.
  pose proof (f_equal (fun l => nth 1 l 0) F1) as F12. pose proof (f_equal (fun l => nth 0 l 0) F2) as F21.
  cbn [nth] in F01, F02, F03, F11, F12, F21.
  assert (ER : qr_r (mkQR [[x0; y0; z0]; [vx b1; y1; z1]; [vx c2; vy c2; z2]] [r0; r1; r2])
     = mkM33 (Rabs r0) (vx b1) (vx c2) 0 (Rabs r1) (vy c2) 0 0 (Rabs r2)) by reflexivity.
  assert (RM : mm g2 (mm g1 (mm g0 (mkM33 a00 a01 a02 a10 a11 a12 a20 a21 a22)))
     = mkM33 (Rabs r0) (vx b1) (vx c2) 0 (Rabs r1) (vy c2) 0 0 (Rabs r2)).
  { assert (K0 : mm g0 (mkM33 a00 a01 a02 a10 a11 a12 a20 a21 a22)
       = mkM33 (vx b0) (vx b1) (vx b2) (vy b0) (vy b1) (vy b2) (vz b0) (vz b1) (vz b2)) by reflexivity.
    rewrite K0, F01, F02, F03.
    assert (K1 : mm g1 (mkM33 (Rabs r0) (vx b1) (vx b2) 0 (vy b1) (vy b2) 0 (vz b1) (vz b2))
       = mkM33 (Rabs r0) (vx b1) (vx c2) 0 (Rabs r1) (vy c2) 0 0 (vz c2)).
    { unfold g1. rewrite G1_mm, F11, F12. unfold c2, g1. now rewrite G1_mv. }
    rewrite K1. rewrite <- F21. unfold g2, G2. apply M33_eq; ru_spec; ring. }
  split; [|split].
  - unfold qr_q, qr_q_step. cbn [qr_cols qr_diag nth skipn]. fold s0 s1 s2.
    cbn [map_cols Nat.leb]. unfold on_rows_from. cbn [firstn skipn app].
    rewrite !reflect1. cbn [firstn skipn app]. rewrite !reflect2. cbn [firstn skipn app].
    cbn [o_zero o_one R_ops]. rewrite !reflect3. fold g0.
    unfold m33_of_cols. cbn [nth]. clearbody g0. unfold g1, g2, G1, G2. clear.
    destruct g0. apply M33_eq; ru_spec; ring.
  - now rewrite ER, RM.
  - rewrite ER. repeat split; apply Rabs_pos.
Qed.

Lemma sym_sq_orthogonal m : mtr m = m -> mm m m = mI -> orthogonal m.
Proof. intros S Q. split; now rewrite S. Qed.
Lemma qr_spec (A : M33 R) :
  let d := qr_new (cols_of_m33 A) in
  orthogonal (qr_q d) /\ upper_nonneg (qr_r d) /\ mm (qr_q d) (qr_r d) = A.
Proof.
  intros d. destruct (qr_factors A) as (x0&y0&z0&s0&y1&z1&s1&z2&s2&Q0&Q1&Q2&HQ&HR&HU). fold d in HQ, HR, HU.
  split; [|split; [exact HU|]].
  - rewrite HQ. repeat apply orthogonal_mm; apply sym_sq_orthogonal; auto.
  - rewrite HQ, HR.
    set (g0 := G0 x0 y0 z0 s0) in *. set (g1 := G1 y1 z1 s1) in *. set (g2 := G2 z2 s2) in *. clearbody g0 g1 g2.
    rewrite <- !mm_assoc. rewrite (mm_assoc g2 g2), Q2, mm_I_l, (mm_assoc g1 g1), Q1, mm_I_l, (mm_assoc g0 g0), Q0.
    apply mm_I_l.
Qed.
