(** * FloatWorldProofs.v - rounding errors between world and pixels (C67-C72) *)

From Coq Require Import ZArith Reals List Bool Lra Lia Psatz.
From Flocq Require Import Core BinarySingleNaN.
From Verif Require Import Scalar Linalg Bundles Extrinsics Perspective Orthographic Camera TestUtils Rows Spec SpecFloatErr RealBase VecLemmas ExtrinsicsProofs FloatBase FloatRound FloatErrProofs FloatErrProofs2 TestUtilsProofs FloatApprox FloatRigidProofs FloatProjProofs.
Import ListNotations.

Section World.
Variables (prec emax : Z) (Hp : Prec_gt_0 prec) (He : Prec_lt_emax prec emax).
Variables fsin fcos : binary_float prec emax -> binary_float prec emax.
Local Notation F := (binary_float prec emax).
Local Hint Extern 0 (Ops (binary_float prec emax)) =>
  exact (B_ops prec emax Hp He fsin fcos) : typeclass_instances.
Local Open Scope R_scope.
(** the unit in which errors are counted *)
Variable u : R.
Local Notation big := (bpow radix2 emax).
Local Notation tiny := (bpow radix2 (2 - emax)).
Local Notation flr := (fl prec emax).
Local Instance fexp_valid : Valid_exp (SpecFloat.fexp prec emax) := fexp_correct prec emax Hp.
Local Notation app := (app prec emax u).
Hypotheses (UR : bpow radix2 (- prec) <= u) (U11 : u <= / 2048) (E17 : (17 <= emax)%Z).
Local Notation u_pos := (ud_pos prec u UR).
Local Notation u11 := U11.
Local Notation tiny1 := (tiny_le_1 emax E17).

(** ** Unprojection *)
(** divide by [s]; multiplied by [s] again, the error is one unit of roundoff *)
Lemma div_scale x s r W P M : flr x r -> sized 0 P s -> 1 <= P -> P <= W -> Rabs r <= W -> 5 * P <= M * Rabs (B2R s) ->
  W <= 5 * P -> 4 * M < big -> exists q, flr (o_div x s) q /\ Rabs (q * B2R s - r) <= u * W.
Proof.
  intros X (Fs & _ & S) P1 PW RW MS W5 MB. pose proof u_pos. pose proof u11. pose proof tiny1.
  set (b := B2R s) in *.
  assert (B0 : 0 < Rabs b). { destruct (Rabs_pos b) as [L|L]; [exact L|]. rewrite <- L in MS. lra. }
  assert (Bn : b <> 0) by (intros ->; rewrite Rabs_R0 in B0; lra).
  assert (WM : W / Rabs b <= M).
  { apply Rmult_le_reg_r with (Rabs b); [exact B0|]. unfold Rdiv. rewrite Rmult_assoc, Rinv_l by lra. lra. }
  assert (W1 : 1 <= W / Rabs b).
  { apply Rmult_le_reg_r with (Rabs b); [exact B0|]. unfold Rdiv. rewrite Rmult_assoc, Rinv_l by lra. lra. }
  destruct (div_err_u prec emax Hp He fsin fcos u UR x s r b (W / Rabs b) X (conj Fs eq_refl) Bn) as (q & Q & D & _).
  - lra.
  - unfold Rdiv. rewrite Rabs_mult, Rabs_inv. apply Rmult_le_compat_r; [left; now apply Rinv_0_lt_compat|exact RW].
  - nra.
  - exists q. split; [exact Q|]. replace (q * b - r) with ((q - r / b) * b) by (field; exact Bn).
    rewrite Rabs_mult. replace (u * W) with (u * (W / Rabs b) * Rabs b) by (field; lra).
    apply Rmult_le_compat_r; [apply Rabs_pos|exact D].
Qed.
Lemma le_of_scale q s P M W : Rabs (q * s) <= W -> W <= 5 * P -> 0 < P -> 5 * P <= M * Rabs s -> Rabs q <= M.
Proof.
  intros A B P0 C. rewrite Rabs_mult in A.
  assert (B0 : 0 < Rabs s). { destruct (Rabs_pos s) as [L|L]; [exact L|]. rewrite <- L in C. lra. }
  apply Rmult_le_reg_r with (Rabs s); [exact B0|]. lra.
Qed.
(** ((p - c) / s) * s + c *)
Lemma unproject_coord p c s P M : sized 0 P p -> sized 0 P c -> sized 0 P s -> 1 <= P -> 5 * P <= M * Rabs (B2R s) ->
  4 * M < big -> 8 * P < big ->
  exists q, flr (o_div (o_sub p c) s) q /\ Rabs (q * B2R s + B2R c - B2R p) <= 4.1 * (u * P) /\
    Rabs (q * B2R s) <= 2.01 * P /\ Rabs q <= M.
Proof.
  intros (Fp & _ & Lp) (Fc & _ & Lc) S P1 MS MB PB. pose proof u_pos. pose proof u11. pose proof tiny1.
  assert (UP : 0 < u * P <= P / 2048) by nra.
  destruct (sub_err_u prec emax Hp He fsin fcos u UR p c (B2R p) (B2R c) (2 * P) (conj Fp eq_refl) (conj Fc eq_refl)) as (r1 & F1 & E1 & B1).
  { lra. } { replace (2 * P) with (P + P) by ring. apply tri; [lra|rewrite Rabs_Ropp; lra]. } { nra. }
  destruct (div_scale _ s r1 (2.001 * P) P M F1 S) as (q & Q & D); try assumption; try lra.
  exists q. split; [exact Q|].
  assert (G : Rabs (q * B2R s + B2R c - B2R p) <= 4.1 * (u * P)).
  { replace (q * B2R s + B2R c - B2R p) with ((q * B2R s - r1) + (r1 - (B2R p - B2R c))) by ring.
    eapply Rle_trans; [apply tri; eassumption|]. lra. }
  assert (H2 : Rabs (q * B2R s) <= 2.01 * P).
  { replace (q * B2R s) with ((q * B2R s + B2R c - B2R p) + (B2R p + - B2R c)) by ring.
    eapply Rle_trans; [apply tri; [exact G|apply tri; [exact Lp|rewrite Rabs_Ropp; exact Lc]]|]. lra. }
  split; [exact G|]. split; [exact H2|]. eapply le_of_scale with (P := P); [exact H2|lra|lra|exact MS].
Qed.

Section Persp.
Variables (k : PerspectiveParams F) (P M : R).
Hypotheses (K : persp_sized P k) (SK : sized 0 (Rabs (B2R (pp_fy k))) (pp_skew k)) (P1 : 1 <= P)
  (FX : 5 * P <= M * Rabs (B2R (pp_fx k))) (FY : 5 * P <= M * Rabs (B2R (pp_fy k))) (MB : 512 * M < big) (PB : 512 * P < big).
Lemma unproject_near p : sized 0 P (px p) -> sized 0 P (py p) ->
  let y := persp_unproject_row k p in
  vec_sized M y /\ vz (vreal y) = 1 /\ pix_near (13.2 * (u * P)) p (pinhole k (vreal y)).
Proof.
  intros SX SY. pose proof u_pos. pose proof u11. pose proof tiny1.
  assert (UP : 0 < u * P <= P / 2048) by nra.
  destruct K as (KX & KY & _ & KCX & KCY).
  destruct (unproject_coord (py p) (pp_cy k) (pp_fy k) P M) as (y & Y & EY & BY & LY); try assumption; try lra.
  assert (M1 : 1 <= M).
  { destruct KX as (_ & _ & L). apply Rmult_le_reg_r with P; [lra|]. pose proof (Rabs_pos (B2R (pp_fx k))).
    assert (0 <= M). { destruct (Rle_or_lt 0 M) as [G|G]; [exact G|]. exfalso. nra. } nra. }
  unfold persp_unproject_row. set (yh := o_div (o_sub (py p) (pp_cy k)) (pp_fy k)) in *.
  destruct SK as (FK & _ & LK). destruct SX as (FPX & _ & LPX). pose proof KCX as (FCX & _ & LCX).
  assert (BK : Rabs (B2R (pp_skew k) * y) <= 2.01 * P).
  { eapply Rle_trans; [|exact BY]. rewrite Rmult_comm, !Rabs_mult. apply Rmult_le_compat_l; [apply Rabs_pos|exact LK]. }
  destruct (mul_err_u prec emax Hp He fsin fcos u UR (pp_skew k) yh (B2R (pp_skew k)) y (2.01 * P) (conj FK eq_refl) Y) as (rk & Fk & Ek & Bk); [lra|exact BK|nra|].
  assert (Bk' : Rabs rk <= 2.02 * P) by nra.
  destruct (sub_err_u prec emax Hp He fsin fcos u UR (px p) _ (B2R (px p)) rk (3.02 * P) (conj FPX eq_refl) Fk) as (r1 & F1 & E1 & B1).
  { lra. } { replace (3.02 * P) with (P + 2.02 * P) by lra. apply tri; [lra|rewrite Rabs_Ropp; lra]. } { nra. }
  assert (B1' : Rabs r1 <= 3.03 * P) by nra.
  destruct (sub_err_u prec emax Hp He fsin fcos u UR _ (pp_cx k) r1 (B2R (pp_cx k)) (4.03 * P) F1 (conj FCX eq_refl)) as (r2 & F2 & E2 & B2).
  { lra. } { replace (4.03 * P) with (3.03 * P + P) by lra. apply tri; [lra|rewrite Rabs_Ropp; lra]. } { nra. }
  assert (B2' : Rabs r2 <= 4.04 * P) by nra.
  destruct (div_scale _ (pp_fx k) r2 (4.04 * P) P M F2 KX) as (x & X & DX); try assumption; try lra.
  assert (EX : Rabs (x * B2R (pp_fx k) + B2R (pp_skew k) * y + B2R (pp_cx k) - B2R (px p)) <= 13.2 * (u * P)).
  { replace (x * B2R (pp_fx k) + B2R (pp_skew k) * y + B2R (pp_cx k) - B2R (px p))
      with ((x * B2R (pp_fx k) - r2) + ((r2 - (r1 - B2R (pp_cx k))) + ((r1 - (B2R (px p) - rk)) + - (rk - B2R (pp_skew k) * y)))) by ring.
    eapply Rle_trans; [apply tri; [exact DX|apply tri; [exact E2|apply tri; [exact E1|rewrite Rabs_Ropp; exact Ek]]]|]. lra. }
  assert (LX : Rabs x <= M).
  { apply le_of_scale with (P := P) (s := B2R (pp_fx k)) (W := 4.05 * P); [|lra|lra|exact FX].
    replace (x * B2R (pp_fx k)) with ((x * B2R (pp_fx k) - r2) + r2) by ring.
    eapply Rle_trans; [apply tri; [exact DX|exact B2']|]. nra. }
  pose proof (fl_one prec emax Hp He fsin fcos) as (O1 & O2).
  destruct X as (X1 & X2), Y as (Y1 & Y2).
  split; [|split].
  - split; [|split]; (split; [assumption|]); cbn [vx vy vz]; (split; [apply Rabs_pos|]).
    + rewrite X2. exact LX.
    + rewrite Y2. exact LY.
    + rewrite O2, Rabs_pos_eq; lra.
  - exact O2.
  - unfold pinhole, vreal. cbn [vx vy vz px py]. rewrite X2, Y2, O2.
    destruct SY as (FPY & _ & LPY).
    split; (split; [assumption|]); cbn [px py]; rewrite Rabs_minus_sym.
    + replace ((B2R (pp_fx k) * x + B2R (pp_skew k) * y) / 1 + B2R (pp_cx k) - B2R (px p))
        with (x * B2R (pp_fx k) + B2R (pp_skew k) * y + B2R (pp_cx k) - B2R (px p)) by field. exact EX.
    + replace (B2R (pp_fy k) * y / 1 + B2R (pp_cy k) - B2R (py p)) with (y * B2R (pp_fy k) + B2R (pp_cy k) - B2R (py p)) by field. lra.
Qed.
End Persp.

Section Ortho.
Variables (k : OrthographicParams F) (P M : R).
Hypotheses (K : ortho_sized P k) (P1 : 1 <= P)
  (SX : 5 * P <= M * Rabs (B2R (op_sx k))) (SY : 5 * P <= M * Rabs (B2R (op_sy k))) (MB : 512 * M < big) (PB : 512 * P < big).
Lemma ortho_unproject_near p : sized 0 P (px p) -> sized 0 P (py p) ->
  let y := ortho_unproject_row k p in
  vec_sized M y /\ vz (vreal y) = 0 /\ pix_near (4.1 * (u * P)) p (parallel_pixel k (vreal y)).
Proof.
  intros PX PY. destruct K as (KX & KY & KCX & KCY).
  destruct (unproject_coord (px p) (op_cx k) (op_sx k) P M) as (x & X & EX & BX & LX); try assumption; try lra.
  destruct (unproject_coord (py p) (op_cy k) (op_sy k) P M) as (y & Y & EY & BY & LY); try assumption; try lra.
  pose proof (fl_zero prec emax Hp He fsin fcos) as (O1 & O2).
  destruct X as (X1 & X2), Y as (Y1 & Y2), PX as (FPX & _), PY as (FPY & _).
  pose proof (Rabs_pos x).
  unfold ortho_unproject_row. split; [|split].
  - split; [|split]; (split; [assumption|]); cbn [vx vy vz]; (split; [apply Rabs_pos|]).
    + rewrite X2. exact LX.
    + rewrite Y2. exact LY.
    + rewrite O2, Rabs_R0; lra.
  - exact O2.
  - unfold parallel_pixel, vreal. cbn [vx vy vz px py]. rewrite X2, Y2.
    split; (split; [assumption|]); cbn [px py]; rewrite Rabs_minus_sym, (Rmult_comm _ x) || rewrite Rabs_minus_sym, (Rmult_comm _ y); assumption.
Qed.
End Ortho.
Section Ortho2.
Variables (k : OrthographicParams F) (P : R).
Hypotheses (K : ortho_sized P k) (P1 : 1 <= P).
Lemma ortho_project_near (yh : V3 F) (y : V3 R) W kk : vec_near (kk * u * W) yh y -> vle W y -> 1 <= W -> 32 * P * W < big ->
  0 <= kk <= 990 -> pix_near ((kk + 3) * u * (P * W + P)) (ortho_project_row k yh) (parallel_pixel k y).
Proof.
  intros (NX & NY & _) (VX & VY & _) W1 WB KK. pose proof u_pos as U0. pose proof tiny1 as T1.
  destruct K as (KX & KY & KCX & KCY). apply (sized_app prec emax u) in KX, KY, KCX, KCY; try assumption.
  assert (PW : 1 <= P * W) by nra. assert (PW' : P <= P * W) by nra.
  assert (G : forall x b s c, near (kk * u * W) x b -> Rabs b <= W -> app s (B2R s) P 0 -> app c (B2R c) P 0 ->
     near ((kk + 3) * u * (P * W + P)) (o_add (o_mul x s) c) (B2R s * b + B2R c)).
  { intros x b s c Nx Lb Hs Hc.
    pose (k1 := kk + 1 + kk / 2048).
    assert (A : app x b W kk) by (eapply near_app; [exact Nx|lra|exact Lb]).
    assert (B : app (o_mul x s) (b * B2R s) (W * P) k1).
    { eapply app_mul; try eassumption; try lra. unfold k1; lra. }
    assert (C : app (o_add (o_mul x s) c) (b * B2R s + B2R c) (W * P + P) (k1 + 1 + k1 / 2048)).
    { eapply app_add with (k := k1); try eassumption; try lra; unfold k1; lra. }
    rewrite (Rmult_comm (B2R s)). eapply app_near; [exact C|].
    rewrite (Rmult_comm P W). apply Rmult_le_compat_r; [lra|]. apply Rmult_le_compat_r; [lra|]. unfold k1. lra. }
  split; apply G; assumption.
Qed.
End Ortho2.

(** ** Whole cameras *)
Section Cam.
Variables (qh : Quat F) (q : Quat R) (c : V3 F) (M : R).
Hypotheses (U : unit_quat q) (N : quat_near (8 * u) qh q) (C : vec_sized M c) (M1 : 1 <= M) (MB : 512 * M < big).
Local Notation E := (from_rotation_and_camcenter qh c).
Local Notation w2c := (iso_transform_point (c_pose (e_cache E))).
Local Notation c2w := (iso_transform_point (c_pose_inv (e_cache E))).
Local Notation w2c_exact := (w2c_exact prec emax Hp He fsin fcos u UR U11 E17 qh q c M U N C M1 MB).
Local Notation c2w_exact := (c2w_exact prec emax Hp He fsin fcos u UR U11 E17 qh q c M U N C M1 MB).
Local Notation uM := (uM prec u UR U11 M M1).
Local Notation uM' := (uM' prec u UR U11 M M1).

Lemma to_camera_vle x : vle M x -> vle (4 * M) (to_camera q (vreal c) x).
Proof.
  intros X. apply vle_mono with (2 * (2 * M)); [|lra]. apply orth_vle; [now apply rotm_orthogonal|].
  replace (2 * M) with (M + M) by ring. apply vle_vsub; [exact X|now apply vec_sized_vle].
Qed.
Lemma to_world_vle y : vle M y -> vle (3 * M) (to_world q (vreal c) y).
Proof.
  intros Y. apply vle_mono with (2 * M + M); [|lra].
  apply vle_vadd; [apply orth_vle; [apply orthogonal_mtr, rotm_orthogonal, U|exact Y]|now apply vec_sized_vle].
Qed.

Lemma C67_lemma pts : Forall (vec_sized M) pts ->
  exists out, world_to_camera E (mkPoints pts) = Some (mkPoints out) /\
    Forall2 (fun x y => vec_near (610 * u * M) y (to_camera q (vreal c) (vreal x))) pts out.
Proof.
  intros H. eexists. split; [apply world_to_camera_rows|]. cbn [pts_data]. apply Forall2_map_l.
  eapply Forall_impl; [|exact H]. intros x X. eapply vec_near_weak; [apply w2c_exact; exact X|].
  pose proof uM. lra.
Qed.
Lemma C68_lemma pts : Forall (vec_sized M) pts ->
  exists out, camera_to_world E (mkPoints pts) = Some (mkPoints out) /\
    Forall2 (fun y x => vec_near (1500 * u * M) x (to_world q (vreal c) (vreal y))) pts out.
Proof.
  intros H. eexists. split; [apply camera_to_world_rows|]. cbn [pts_data]. apply Forall2_map_l.
  eapply Forall_impl; [|exact H]. intros x X. eapply vec_near_weak; [apply c2w_exact; exact X|].
  pose proof uM. lra.
Qed.
Lemma C69_lemma pts : Forall (vec_sized M) pts ->
  (exists mid out, world_to_camera E (mkPoints pts) = Some mid /\ camera_to_world E mid = Some (mkPoints out) /\
     Forall2 (fun x x' => vec_near (4000 * u * M) x' (vreal x)) pts out) /\
  (exists mid out, camera_to_world E (mkPoints pts) = Some mid /\ world_to_camera E mid = Some (mkPoints out) /\
     Forall2 (fun y y' => vec_near (4500 * u * M) y' (vreal y)) pts out).
Proof.
  intros H. pose proof uM. split; do 2 eexists.
  - split; [apply world_to_camera_rows|]. split; [apply camera_to_world_rows|].
    cbn [pts_data]. rewrite map_map. apply Forall2_map_l.
    eapply Forall_impl; [|exact H]. intros x X. eapply vec_near_weak.
    + apply (w2c_c2w prec emax Hp He fsin fcos u UR U11 E17 qh q c M); eassumption.
    + lra.
  - split; [apply camera_to_world_rows|]. split; [apply world_to_camera_rows|].
    cbn [pts_data]. rewrite map_map. apply Forall2_map_l.
    eapply Forall_impl; [|exact H]. intros x X. eapply vec_near_weak.
    + apply (c2w_w2c prec emax Hp He fsin fcos u UR U11 E17 qh q c M); eassumption.
    + lra.
Qed.

Lemma pix_near_weak e e' (p : V2 F) w : pix_near e p w -> e <= e' -> pix_near e' p w.
Proof. intros (A & B) L. split; eapply near_weak; eauto. Qed.

Lemma C70_lemma P pts : 1 <= P -> 512 * P * M < big -> Forall (vec_sized M) pts ->
  (forall k : PerspectiveParams F, persp_sized P k -> forall d, 0 < d -> 40000 * u * M <= d ->
     Forall (fun x => d <= vz (to_camera q (vreal c) (vreal x)) /\
                      pix_within P (pinhole k (to_camera q (vreal c) (vreal x)))) pts ->
     exists out, world_to_pixel (camera_new (perspective_from k) E) (mkPoints pts) = Some (mkPixels out) /\
       Forall2 (fun x p => pix_near (2600 * u * P * (M / d)) p (pinhole k (to_camera q (vreal c) (vreal x)))) pts out) /\
  (forall k : OrthographicParams F, ortho_sized P k ->
     exists out, world_to_pixel (camera_new (orthographic_from k) E) (mkPoints pts) = Some (mkPixels out) /\
       Forall2 (fun x p => pix_near (800 * u * P * M) p (parallel_pixel k (to_camera q (vreal c) (vreal x)))) pts out).
Proof.
  intros P1 PB H. pose proof uM as UM. pose proof u_pos as U0.
  assert (PM : 1 <= P * M) by nra. split.
  - intros k K d D0 D H2. eexists. split; [apply persp_world_to_pixel_rows|].
    cbn [pts_data]. apply Forall2_map_l.
    rewrite Forall_forall in H, H2 |- *. intros x Hx. specialize (H x Hx). destruct (H2 x Hx) as (Z & Q). clear H2 Hx.
    pose proof (w2c_exact x H) as W.
    pose proof (to_camera_vle (vreal x) (vec_sized_vle _ _ _ _ H)) as L.
    eapply pix_near_weak.
    + apply (project_near prec emax Hp He fsin fcos u UR U11 E17 k P K P1 _ (to_camera q (vreal c) (vreal x)) (4 * M) 152.1 1 d).
      * eapply vec_near_weak; [exact W|]. lra.
      * exact L.
      * lra.
      * lra.
      * lra.
      * lra.
      * lra.
      * lra.
      * rewrite Rmult_1_l. exact Q.
    + assert (0 < u * P * (M / d)) by (apply Rmult_lt_0_compat; [nra|apply Rdiv_lt_0_compat; lra]).
      replace ((3.06 * 152.1 + 1.016 * 1 * 152.1 + 12) * u * P * (4 * M / d))
        with (u * P * (M / d) * (4 * (3.06 * 152.1 + 1.016 * 1 * 152.1 + 12))) by (field; lra).
      replace (2600 * u * P * (M / d)) with (u * P * (M / d) * 2600) by ring.
      apply Rmult_le_compat_l; lra.
  - intros k K. eexists. split; [apply ortho_world_to_pixel_rows|].
    cbn [pts_data io_params orthographic_from]. apply Forall2_map_l.
    eapply Forall_impl; [|exact H]. intros x X. pose proof (w2c_exact x X) as W.
    pose proof (to_camera_vle (vreal x) (vec_sized_vle _ _ _ _ X)) as L.
    eapply pix_near_weak.
    + apply ortho_project_near with (W := 4 * M) (kk := 152.1) (P := P).
      * exact K.
      * exact P1.
      * eapply vec_near_weak; [exact W|]. lra.
      * exact L.
      * lra.
      * lra.
      * lra.
    + assert (0 < u * P) by nra. assert (u * P <= u * P * M) by nra.
      replace ((152.1 + 3) * u * (P * (4 * M) + P)) with ((152.1 + 3) * (4 * (u * P * M) + u * P)) by ring.
      lra.
Qed.

(** ** Pixel to world ray to pixel *)
Lemma vec_zero_sized : vec_sized M (@v3_zero F _).
Proof.
  pose proof (fl_zero prec emax Hp He fsin fcos) as (O1 & O2).
  split; [|split]; (split; [exact O1|]); cbn [v3_zero vx vy vz]; rewrite O2, Rabs_R0; lra.
Qed.
Lemma vreal_zero : vreal (@v3_zero F _) = vO.
Proof.
  pose proof (fl_zero prec emax Hp He fsin fcos) as (_ & O2).
  unfold vreal, v3_zero. cbn [vx vy vz]. now rewrite O2.
Qed.
Lemma vadd_comm' (a b : V3 R) : vadd a b = vadd b a.
Proof. unfold vadd. f_equal; ring. Qed.
Lemma vec_near_exact (y : V3 F) : vec_sized M y -> vec_near 0 y (vreal y).
Proof.
  intros ((A & _) & (B & _) & (D & _)). split; [|split]; (split; [assumption|]); cbn; rewrite Rminus_eq_0, Rabs_R0; lra.
Qed.

Lemma persp_ray_point y : vec_sized M y ->
  vec_near (1779.6 * u * M) (v3_add (c2w v3_zero) (iso_transform_vector (c_pose_inv (e_cache E)) y)) (to_world q (vreal c) (vreal y)).
Proof.
  intros Y. pose proof uM as UM. unfold to_world. rewrite vadd_comm'.
  replace (1779.6 * u * M) with (1779.6 * (u * M)) by ring.
  eapply vec_near_weak; [apply (vec_add_near prec emax Hp He fsin fcos u UR U11 E17) with (e1 := 1461 * u * M) (e2 := 302 * u * M + 2 * 0) (W1 := 9.7 * M) (W2 := 2 * M)|].
  - pose proof (c2w_exact _ vec_zero_sized) as Z. rewrite vreal_zero, to_world_O in Z. exact Z.
  - unfold iso_transform_vector. cbn [from_rotation_and_camcenter e_cache c_pose_inv iso_inverse iso_rot iso_trans].
    rewrite <- rotm_inverse. apply (rot_near2 prec emax Hp He fsin fcos u UR U11 E17);
      [now apply unit_quat_inverse|now apply quat_near_inverse|exact Y|exact M1|lra|now apply vec_near_exact].
  - apply vle_mono with M; [now apply vec_sized_vle|lra].
  - apply orth_vle; [apply orthogonal_mtr, rotm_orthogonal, U|now apply vec_sized_vle].
  - lra.
  - lra.
  - lra.
  - lra.
  - lra.
Qed.
(** back in camera coordinates *)
Lemma back_in_camera x y e M' W1 : vec_near e x (to_world q (vreal c) y) -> vle (M' - e) (to_world q (vreal c) y) ->
  1 <= M' -> 64 * M' < big -> 302 * u * M' + 2 * e <= 151 * u * W1 -> 2 * M' <= W1 -> 0 <= e -> 4 * (W1 + 2 * M) < big ->
  vec_near (152.1 * u * (W1 + 2 * M)) (w2c x) y.
Proof.
  intros X L M'1 M'B G1 G2 E0 WB. rewrite <- (to_camera_to_world q (vreal c) y U).
  apply (w2c_near prec emax Hp He fsin fcos u UR U11 E17 qh q c M U N C M1 MB) with (e := e) (M' := M'); try assumption; try lra.
  - eapply vec_sized_weak; [eapply vec_near_sized; eassumption|lra].
  - apply vle_mono with (2 * (M' - e)); [|lra]. apply orth_vle; [now apply rotm_orthogonal|exact L].
Qed.

Lemma near_pixel e e' (p p' : V2 F) w : pix_near e p w -> pix_near e' p' w -> pixel_within (e + e') p p'.
Proof.
  intros ((A & A') & (B & B')) ((D & D') & (G & G')). 
  assert (T : forall a b d : R, a - d = (a - b) + - (d - b)) by (intros; ring).
  repeat split; try assumption.
  - rewrite (T _ (px w)), Rplus_comm. apply tri; [rewrite Rabs_Ropp|]; assumption.
  - rewrite (T _ (py w)), Rplus_comm. apply tri; [rewrite Rabs_Ropp|]; assumption.
Qed.

Lemma persp_world_row k P p : 1 <= P -> 512 * P * M < big -> 330000 * u * M <= 1 -> persp_sized P k ->
  sized 0 (Rabs (B2R (pp_fy k))) (pp_skew k) -> 5 * P <= M * Rabs (B2R (pp_fx k)) -> 5 * P <= M * Rabs (B2R (pp_fy k)) ->
  sized 0 P (px p) -> sized 0 P (py p) ->
  pixel_within (21000 * u * P * M) p (persp_project_row (ip_cache_p (perspective_from k))
    (w2c (v3_add (c2w v3_zero) (iso_transform_vector (c_pose_inv (e_cache E)) (persp_unproject_row k p))))).
Proof.
  intros P1 PB MU K SK FX FY PX PY. pose proof uM as UM. pose proof uM' as UM'. pose proof u_pos as U0. pose proof u11 as U1.
  assert (PB' : 512 * P < big) by nra.
  destruct (unproject_near k P M K SK P1 FX FY MB PB' p PX PY) as (Y & Z & Q).
  set (y := persp_unproject_row k p) in *.
  pose proof (persp_ray_point y Y) as X.
  set (x := v3_add (c2w v3_zero) (iso_transform_vector (c_pose_inv (e_cache E)) y)) in *.
  assert (B : vec_near (5081 * u * M) (w2c x) (vreal y)).
  { eapply vec_near_weak; [apply back_in_camera with (e := 1779.6 * u * M) (M' := 3.9 * M) (W1 := 31.4 * M); [exact X|..]|]; try lra.
    apply vle_mono with (3 * M); [|lra]. apply to_world_vle. now apply vec_sized_vle. }
  assert (UP : 0 < u * P <= P / 2048) by nra. assert (UPM : u * P <= u * P * M) by nra.
  assert (PW : pix_within (1.01 * P) (pinhole k (vreal y))).
  { destruct Q as ((Q1 & Q2) & (Q3 & Q4)). destruct PX as (_ & _ & PX), PY as (_ & _ & PY). split.
    - replace (px (pinhole k (vreal y))) with (B2R (px p) + - (B2R (px p) - px (pinhole k (vreal y)))) by ring.
      eapply Rle_trans; [apply tri; [exact PX|rewrite Rabs_Ropp; exact Q2]|]. lra.
    - replace (py (pinhole k (vreal y))) with (B2R (py p) + - (B2R (py p) - py (pinhole k (vreal y)))) by ring.
      eapply Rle_trans; [apply tri; [exact PY|rewrite Rabs_Ropp; exact Q4]|]. lra. }
  apply within_weaken with (13.2 * (u * P) + (3.06 * 847 + 1.016 * 1.01 * 847 + 12) * u * P * (6 * M / 1)).
  { replace ((3.06 * 847 + 1.016 * 1.01 * 847 + 12) * u * P * (6 * M / 1)) with (6 * (3.06 * 847 + 1.016 * 1.01 * 847 + 12) * (u * P * M)) by field. lra. }
  eapply near_pixel; [exact Q|].
  apply (project_near prec emax Hp He fsin fcos u UR U11 E17 k P K P1).
  - eapply vec_near_weak; [exact B|]. lra.
  - apply vle_mono with M; [now apply vec_sized_vle|lra].
  - lra.
  - lra.
  - lra.
  - rewrite Z. lra.
  - lra.
  - lra.
  - exact PW.
Qed.

Lemma ortho_ray_point y : vec_sized M y -> vz (vreal y) = 0 ->
  vec_near (1779.6 * u * M) (v3_add (iso_transform_vector (c_pose_inv (e_cache E)) (mkV3 o_zero o_zero o_one)) (c2w y))
    (to_world q (vreal c) (vadd (vreal y) (mkV3 0 0 1))).
Proof.
  intros Y _. pose proof uM as UM. pose proof u_pos.
  assert (EQ : to_world q (vreal c) (vadd (vreal y) (mkV3 0 0 1)) = vadd (mv (mtr (rotm q)) (mkV3 0 0 1)) (to_world q (vreal c) (vreal y))).
  { unfold to_world. rewrite mv_vadd. unfold vadd. cbn. f_equal; ring. }
  rewrite EQ.
  pose proof (fl_zero prec emax Hp He fsin fcos) as (Z1 & Z2). pose proof (fl_one prec emax Hp He fsin fcos) as (O1 & O2).
  eapply vec_near_weak; [apply (vec_add_near prec emax Hp He fsin fcos u UR U11 E17) with (e1 := 302 * u * 1 + 2 * 0) (e2 := 1461 * u * M) (W1 := 2 * M) (W2 := 9.7 * M)|].
  - unfold iso_transform_vector. cbn [from_rotation_and_camcenter e_cache c_pose_inv iso_inverse iso_rot iso_trans].
    rewrite <- rotm_inverse. apply (rot_near2 prec emax Hp He fsin fcos u UR U11 E17);
      [now apply unit_quat_inverse|now apply quat_near_inverse| |lra|lra|].
    + split; [|split]; (split; [assumption|]); cbn [vx vy vz]; rewrite ?Z2, ?O2, ?Rabs_R0, ?Rabs_R1; lra.
    + split; [|split]; (split; [assumption|]); cbn [vx vy vz]; rewrite ?Z2, ?O2, Rminus_eq_0, Rabs_R0; lra.
  - apply c2w_exact, Y.
  - apply vle_mono with (2 * 1); [|lra]. apply orth_vle; [apply orthogonal_mtr, rotm_orthogonal, U|].
    repeat split; cbn; rewrite ?Rabs_R0, ?Rabs_R1; lra.
  - apply vle_mono with (3 * M); [|lra]. apply to_world_vle. now apply vec_sized_vle.
  - nra.
  - lra.
  - lra.
  - lra.
  - lra.
Qed.
Lemma ortho_world_row k P p : 1 <= P -> 512 * P * M < big -> ortho_sized P k ->
  5 * P <= M * Rabs (B2R (op_sx k)) -> 5 * P <= M * Rabs (B2R (op_sy k)) ->
  sized 0 P (px p) -> sized 0 P (py p) ->
  pixel_within (7000 * u * P * M) p (ortho_project_row k
    (w2c (v3_add (iso_transform_vector (c_pose_inv (e_cache E)) (mkV3 o_zero o_zero o_one)) (c2w (ortho_unproject_row k p))))).
Proof.
  intros P1 PB K SX SY PX PY. pose proof uM as UM. pose proof uM' as UM'. pose proof u_pos as U0. pose proof u11 as U1.
  assert (PB' : 512 * P < big) by nra.
  destruct (ortho_unproject_near k P M K P1 SX SY MB PB' p PX PY) as (Y & Z & Q).
  set (y := ortho_unproject_row k p) in *.
  pose proof (ortho_ray_point y Y Z) as X.
  set (x := v3_add (iso_transform_vector (c_pose_inv (e_cache E)) (mkV3 o_zero o_zero o_one)) (c2w y)) in *.
  set (y1 := vadd (vreal y) (mkV3 0 0 1)) in *.
  assert (Y1 : vle M y1).
  { destruct (vec_sized_vle _ _ _ _ Y) as (Y1 & Y2 & Y3). unfold y1, vadd. rewrite Z.
    repeat split; cbn [vx vy vz]; rewrite ?Rplus_0_r, ?Rplus_0_l; try assumption. rewrite Rabs_R1. exact M1. }
  assert (B : vec_near (5081 * u * M) (w2c x) y1).
  { eapply vec_near_weak; [apply back_in_camera with (e := 1779.6 * u * M) (M' := 3.9 * M) (W1 := 31.4 * M); [exact X|..]|]; try lra.
    apply vle_mono with (3 * M); [|lra]. now apply to_world_vle. }
  assert (UP : 0 < u * P <= P / 2048) by nra. assert (UPM : u * P <= u * P * M) by nra.
  apply within_weaken with (4.1 * (u * P) + (847 + 3) * u * (P * (6 * M) + P)).
  { replace ((847 + 3) * u * (P * (6 * M) + P)) with ((847 + 3) * (6 * (u * P * M) + u * P)) by ring. lra. }
  assert (Q' : pix_near (4.1 * (u * P)) p (parallel_pixel k y1)).
  { replace (parallel_pixel k y1) with (parallel_pixel k (vreal y)); [exact Q|].
    unfold parallel_pixel, y1, vadd. cbn [vx vy]. now rewrite !Rplus_0_r. }
  eapply near_pixel; [exact Q'|].
  apply (ortho_project_near k P K P1).
  - eapply vec_near_weak; [exact B|]. lra.
  - apply vle_mono with M; [exact Y1|lra].
  - lra.
  - lra.
  - lra.
Qed.

Local Notation okpix P := (fun p : V2 F => sized 0 P (px p) /\ sized 0 P (py p)).
Lemma C71_lemma P pixels : 1 <= P -> 512 * P * M < big -> Forall (okpix P) (pix_data pixels) ->
  (forall k : PerspectiveParams F, persp_sized P k -> sized 0 (Rabs (B2R (pp_fy k))) (pp_skew k) ->
     5 * P <= M * Rabs (B2R (pp_fx k)) -> 5 * P <= M * Rabs (B2R (pp_fy k)) -> 330000 * u * M <= 1 ->
     exists rays pts back,
       pixel_to_world (camera_new (perspective_from k) E) pixels = Some rays /\
       point_on_ray rays = Some pts /\
       world_to_pixel (camera_new (perspective_from k) E) pts = Some back /\
       Forall2 (pixel_within (21000 * u * P * M)) (pix_data pixels) (pix_data back)) /\
  (forall k : OrthographicParams F, ortho_sized P k ->
     5 * P <= M * Rabs (B2R (op_sx k)) -> 5 * P <= M * Rabs (B2R (op_sy k)) ->
     exists rays pts back,
       pixel_to_world (camera_new (orthographic_from k) E) pixels = Some rays /\
       point_on_ray rays = Some pts /\
       world_to_pixel (camera_new (orthographic_from k) E) pts = Some back /\
       Forall2 (pixel_within (7000 * u * P * M)) (pix_data pixels) (pix_data back)).
Proof.
  intros P1 PB H. split.
  - intros k K SK FX FY MU. do 3 eexists.
    split; [apply persp_pixel_to_world_rows|].
    split; [unfold point_on_ray; cbn -[so_point_on_ray]; apply so_point_on_ray_rows|].
    split; [apply persp_world_to_pixel_rows|].
    cbn [pix_data pts_data ip_params perspective_from so_center]. rewrite !map_map. apply Forall2_map_l.
    eapply Forall_impl; [|exact H]. intros p (PX & PY). now apply persp_world_row.
  - intros k K SX SY. do 3 eexists.
    split; [apply ortho_pixel_to_world_rows|].
    split; [unfold point_on_ray; cbn -[sd_point_on_ray]; apply sd_point_on_ray_rows|].
    split; [apply ortho_world_to_pixel_rows|].
    cbn [pix_data pts_data io_params orthographic_from sd_direction]. rewrite !map_map. apply Forall2_map_l.
    eapply Forall_impl; [|exact H]. intros p (PX & PY). now apply ortho_world_row.
Qed.

Lemma helper_camera_ok {I} {HI : IntrinsicParameters F I} {HB : Bundle F BundleType} umax as_scalar (cam : Camera F I)
    width height step border (eps : F) b px :
  generate_uv_raw umax as_scalar width height step border = Some px ->
  Forall (fun p => is_finite (Linalg.px p) = true /\ is_finite (py p) = true) (pix_data px) ->
  is_finite eps = true -> b <= B2R eps ->
  (exists rays pts back, pixel_to_world cam px = Some rays /\ point_on_ray rays = Some pts /\
     world_to_pixel cam pts = Some back /\ Forall2 (pixel_within b) (pix_data px) (pix_data back)) ->
  roundtrip_camera umax as_scalar cam width height step border eps = Some tt.
Proof.
  intros E0 Fin Fe Le (rays & pts & back & E1 & E2 & E3 & W).
  unfold roundtrip_camera. rewrite E0. cbn [bind]. rewrite E1. cbn [bind]. rewrite E2. cbn [bind]. rewrite E3. cbn [bind].
  apply assert_ok.
  - clear - W. induction W; cbn; congruence.
  - clear - W Fin Fe Le Hp. induction W as [|p r l l' (A & B & D & G) W IH]; [constructor|].
    inversion Fin as [|? ? (Fp & Fq) Fin']. subst. constructor; [|now apply IH].
    split; eapply within_leb; eassumption.
Qed.

Lemma C72_lemma P umax (as_scalar : nat -> F) width height step border (eps : F) : 1 <= P -> 512 * P * M < big ->
  (0 < step)%nat -> (width <= umax)%nat -> (height <= umax)%nat ->
  (forall n, (n < width \/ n < height)%nat -> sized 0 P (as_scalar n)) ->
  generate_uv_raw umax as_scalar width height step border <> None ->
  is_finite eps = true ->
  (forall k : PerspectiveParams F, persp_sized P k -> sized 0 (Rabs (B2R (pp_fy k))) (pp_skew k) ->
     5 * P <= M * Rabs (B2R (pp_fx k)) -> 5 * P <= M * Rabs (B2R (pp_fy k)) -> 330000 * u * M <= 1 ->
     21000 * u * P * M <= B2R eps ->
     roundtrip_camera umax as_scalar (camera_new (perspective_from k) E) width height step border eps = Some tt) /\
  (forall k : OrthographicParams F, ortho_sized P k ->
     5 * P <= M * Rabs (B2R (op_sx k)) -> 5 * P <= M * Rabs (B2R (op_sy k)) ->
     7000 * u * P * M <= B2R eps ->
     roundtrip_camera umax as_scalar (camera_new (orthographic_from k) E) width height step border eps = Some tt).
Proof.
  intros P1 PB S W H A G Fe.
  destruct (generate_uv_raw umax as_scalar width height step border) as [px|] eqn:Eg; [clear G|congruence].
  pose proof (grid_pixels prec emax Hp He fsin fcos umax as_scalar width height step border px _ S W H A Eg) as Q.
  assert (Fin : Forall (fun p => is_finite (Linalg.px p) = true /\ is_finite (py p) = true) (pix_data px)).
  { eapply Forall_impl; [|exact Q]. intros p ((? & _) & (? & _)). auto. }
  destruct (C71_lemma P px P1 PB Q) as (L1 & L2). split.
  - intros k K SK FX FY MU Le. eapply helper_camera_ok; [exact Eg|exact Fin|exact Fe|exact Le|]. now apply L1.
  - intros k K SX SY Le. eapply helper_camera_ok; [exact Eg|exact Fin|exact Fe|exact Le|]. now apply L2.
Qed.
End Cam.
End World.

(** ** Stored quaternions *)
Lemma near_unit_quat {prec emax} (e : R) (qh : Quat (binary_float prec emax)) :
  is_finite (qi qh) = true -> is_finite (qj qh) = true -> is_finite (qk qh) = true -> is_finite (qw qh) = true ->
  (e < 1)%R ->
  (Rabs (qnorm2 (mkQuat (B2R (qi qh)) (B2R (qj qh)) (B2R (qk qh)) (B2R (qw qh))) - 1) <= e)%R ->
  exists q, unit_quat q /\ quat_near e qh q.
Proof.
  intros Fi Fj Fk Fw E1 H. set (n2 := qnorm2 _) in H.
  assert (N0 : (0 < n2)%R) by (apply Rabs_le_inv in H; lra).
  pose (n := sqrt n2). assert (NP : (0 < n)%R) by (now apply sqrt_lt_R0).
  assert (NN : (n * n = n2)%R) by (apply sqrt_sqrt; lra).
  assert (D : (Rabs (n - 1) <= e)%R).
  { apply Rle_trans with (Rabs (n2 - 1)); [|exact H]. rewrite <- NN. replace (n * n - 1)%R with ((n - 1) * (n + 1))%R by ring.
    rewrite Rabs_mult, (Rabs_pos_eq (n + 1)) by lra. pose proof (Rabs_pos (n - 1)). nra. }
  exists (mkQuat (B2R (qi qh) / n) (B2R (qj qh) / n) (B2R (qk qh) / n) (B2R (qw qh) / n))%R.
  clearbody n. unfold qnorm2 in n2. cbn [qi qj qk qw] in n2.
  assert (U : ((B2R (qi qh) / n) * (B2R (qi qh) / n) + (B2R (qj qh) / n) * (B2R (qj qh) / n) +
    (B2R (qk qh) / n) * (B2R (qk qh) / n) + (B2R (qw qh) / n) * (B2R (qw qh) / n) = 1)%R).
  { apply Rmult_eq_reg_r with (n * n)%R; [|nra]. rewrite Rmult_1_l. rewrite NN at 2. unfold n2. field. lra. }
  split; [exact U|].
  assert (G : forall x : binary_float prec emax, is_finite x = true -> (Rabs (B2R x / n) <= 1)%R -> near e x (B2R x / n)).
  { intros x Fx L. split; [exact Fx|]. replace (B2R x - B2R x / n)%R with (B2R x / n * (n - 1))%R by (field; lra).
    rewrite Rabs_mult. pose proof (Rabs_pos (n - 1)). pose proof (Rabs_pos (B2R x / n)). nra. }
  unfold quat_near. cbn [qi qj qk qw].
  assert (S : forall a b c d : R, (a * a + b * b + c * c + d * d = 1 -> Rabs a <= 1)%R) by (intros; apply sq_abs; nra).
  split; [|split; [|split]]; (apply G; [assumption|]).
  - apply (S _ _ _ _ U).
  - apply (S _ (B2R (qi qh) / n) (B2R (qk qh) / n) (B2R (qw qh) / n))%R; lra.
  - apply (S _ (B2R (qi qh) / n) (B2R (qj qh) / n) (B2R (qw qh) / n))%R; lra.
  - apply (S _ (B2R (qi qh) / n) (B2R (qj qh) / n) (B2R (qk qh) / n))%R; lra.
Qed.

Lemma near_unit_quat8 prec emax (qh : Quat (binary_float prec emax)) : (11 <= prec)%Z ->
  is_finite (qi qh) = true -> is_finite (qj qh) = true -> is_finite (qk qh) = true -> is_finite (qw qh) = true ->
  (Rabs (qnorm2 (mkQuat (B2R (qi qh)) (B2R (qj qh)) (B2R (qk qh)) (B2R (qw qh))) - 1) <= 8 * bpow radix2 (- prec))%R ->
  exists q, unit_quat q /\ quat_near (8 * bpow radix2 (- prec)) qh q.
Proof.
  intros P A B C D. apply near_unit_quat; try assumption. pose proof (u11 prec P). lra.
Qed.

Section F64.
Variables fsin fcos : f64 -> f64.
Local Hint Extern 0 (Ops f64) => exact (f64_ops fsin fcos) : typeclass_instances.
Local Open Scope R_scope.
Local Notation u := (bpow radix2 (- (53))).
Lemma big_f64 x : x < 1000000000000000000 -> x < bpow radix2 1024.
Proof.
  intros H. apply Rlt_trans with (bpow radix2 60); [|apply bpow_lt; lia].
  change (bpow radix2 60) with 1152921504606846976. lra.
Qed.
Lemma u_f64' : 0 < u. Proof. apply bpow_gt_0. Qed.

Lemma C67b_lemma (qh : Quat f64) q c pts : unit_quat q -> quat_near (8 * u) qh q -> vec_sized 1000 c -> Forall (vec_sized 1000) pts ->
  (exists out, world_to_camera (from_rotation_and_camcenter qh c) (mkPoints pts) = Some (mkPoints out) /\
     Forall2 (fun x y => vec_near (1 / 10000000000) y (to_camera q (vreal c) (vreal x))) pts out) /\
  (exists out, camera_to_world (from_rotation_and_camcenter qh c) (mkPoints pts) = Some (mkPoints out) /\
     Forall2 (fun y x => vec_near (2 / 10000000000) x (to_world q (vreal c) (vreal y))) pts out) /\
  (exists mid out, world_to_camera (from_rotation_and_camcenter qh c) (mkPoints pts) = Some mid /\
     camera_to_world (from_rotation_and_camcenter qh c) mid = Some (mkPoints out) /\
     Forall2 (fun x x' => vec_near (5 / 10000000000) x' (vreal x)) pts out).
Proof.
  intros U N C H. pose proof u_f64. pose proof u_f64'.
  assert (B : 512 * 1000 < bpow radix2 1024) by (apply big_f64; lra).
  split; [|split].
  - destruct (C67_lemma 53 1024 f64_prec f64_emax fsin fcos _ (Rle_refl _) (u11 53 ltac:(lia)) ltac:(lia) qh q c 1000 U N C ltac:(lra) B pts H) as (out & E & W).
    exists out. split; [exact E|]. eapply Forall2_impl'; [|exact W]. intros x y D. eapply vec_near_weak; [exact D|lra].
  - destruct (C68_lemma 53 1024 f64_prec f64_emax fsin fcos _ (Rle_refl _) (u11 53 ltac:(lia)) ltac:(lia) qh q c 1000 U N C ltac:(lra) B pts H) as (out & E & W).
    exists out. split; [exact E|]. eapply Forall2_impl'; [|exact W]. intros x y D. eapply vec_near_weak; [exact D|lra].
  - destruct (C69_lemma 53 1024 f64_prec f64_emax fsin fcos _ (Rle_refl _) (u11 53 ltac:(lia)) ltac:(lia) qh q c 1000 U N C ltac:(lra) B pts H) as ((mid & out & E & E' & W) & _).
    exists mid, out. split; [exact E|]. split; [exact E'|]. eapply Forall2_impl'; [|exact W]. intros x y D. eapply vec_near_weak; [exact D|lra].
Qed.
Lemma C70b_lemma (qh : Quat f64) q c (k : PerspectiveParams f64) pts : unit_quat q -> quat_near (8 * u) qh q ->
  vec_sized 1000 c -> Forall (vec_sized 1000) pts -> persp_sized 10000 k ->
  Forall (fun x => 1 <= vz (to_camera q (vreal c) (vreal x)) /\ pix_within 10000 (pinhole k (to_camera q (vreal c) (vreal x)))) pts ->
  exists out, world_to_pixel (camera_new (perspective_from k) (from_rotation_and_camcenter qh c)) (mkPoints pts) = Some (mkPixels out) /\
    Forall2 (fun x p => pix_near (3 / 1000000) p (pinhole k (to_camera q (vreal c) (vreal x)))) pts out.
Proof.
  intros U N C H K H2. pose proof u_f64. pose proof u_f64'.
  assert (B : 512 * 1000 < bpow radix2 1024) by (apply big_f64; lra).
  assert (B' : 512 * 10000 * 1000 < bpow radix2 1024) by (apply big_f64; lra).
  destruct (proj1 (C70_lemma 53 1024 f64_prec f64_emax fsin fcos _ (Rle_refl _) (u11 53 ltac:(lia)) ltac:(lia) qh q c 1000 U N C ltac:(lra) B 10000 pts
    ltac:(lra) B' H) k K 1 ltac:(lra) ltac:(lra) H2) as (out & E & W).
  exists out. split; [exact E|]. eapply Forall2_impl'; [|exact W]. intros x y D. eapply pix_near_weak; [exact D|lra].
Qed.
Lemma C71b_lemma (qh : Quat f64) q c (k : PerspectiveParams f64) pixels : unit_quat q -> quat_near (8 * u) qh q ->
  vec_sized 100 c -> sized 500 10000 (pp_fx k) -> sized 500 10000 (pp_fy k) -> sized 0 500 (pp_skew k) ->
  sized 0 10000 (pp_cx k) -> sized 0 10000 (pp_cy k) ->
  Forall (fun p => sized 0 10000 (px p) /\ sized 0 10000 (py p)) (pix_data pixels) ->
  exists rays pts back,
    pixel_to_world (camera_new (perspective_from k) (from_rotation_and_camcenter qh c)) pixels = Some rays /\
    point_on_ray rays = Some pts /\
    world_to_pixel (camera_new (perspective_from k) (from_rotation_and_camcenter qh c)) pts = Some back /\
    Forall2 (pixel_within (3 / 1000000)) (pix_data pixels) (pix_data back).
Proof.
  unfold f64 in k. intros U N C (FX & LX) (FY & LY) (FS & LS) CX CY H.
  change (@pp_fx f64) with (@pp_fx (binary_float 53 1024)) in *. change (@pp_fy f64) with (@pp_fy (binary_float 53 1024)) in *.
  change (@pp_skew f64) with (@pp_skew (binary_float 53 1024)) in *. pose proof u_f64. pose proof u_f64'.
  assert (B : 512 * 100 < bpow radix2 1024) by (apply big_f64; lra).
  assert (B' : 512 * 10000 * 100 < bpow radix2 1024) by (apply big_f64; lra).
  assert (K : persp_sized 10000 k) .
  { split; [split; [exact FX|]|split; [split; [exact FY|]|split; [split; [exact FS|]|split; assumption]]].
    - split; [apply Rabs_pos|]. apply LX.
    - split; [apply Rabs_pos|]. apply LY.
    - lra. }
  assert (SK : sized 0 (Rabs (B2R (pp_fy k))) (pp_skew k)) by (split; [exact FS|lra]).
  assert (GX : 5 * 10000 <= 100 * Rabs (B2R (pp_fx k))) by lra.
  assert (GY : 5 * 10000 <= 100 * Rabs (B2R (pp_fy k))) by lra.
  assert (GU : 330000 * u * 100 <= 1) by lra.
  destruct (proj1 (C71_lemma 53 1024 f64_prec f64_emax fsin fcos _ (Rle_refl _) (u11 53 ltac:(lia)) ltac:(lia) qh q c 100 U N C ltac:(lra) B 10000 pixels
    ltac:(lra) B' H) k K SK GX GY GU) as (rays & pts & back & E1 & E2 & E3 & W).
  exists rays, pts, back. repeat (split; [assumption|]). eapply Forall2_impl'; [|exact W].
  intros p r. apply within_weaken. lra.
Qed.
End F64.
