(** * FloatRQProofs8.v - proofs of C123 and C124: pixels of the cameras which come from matrices, with rounding *)

From Coq Require Import ZArith Reals List Bool Lra Lia Psatz.
From Flocq Require Import Core BinarySingleNaN.
From Verif Require Import Scalar Linalg Householder Bundles Perspective Extrinsics Camera Spec SpecGeom SpecFloatErr SpecFloatMat SpecFloatRQ RealBase VecLemmas ExtrinsicsProofs TriProofs FromViewProofs SpectralProofs CamMatProofs FloatBase FloatRound FloatErrProofs FloatErrProofs2 FloatApprox FloatRigidProofs
  FloatProjProofs FloatDirProofs FloatViewProofs FloatWorldProofs FloatIsectProofs4 FloatTriProofs FloatRQProofs6 FloatRQProofs7.
Import ListNotations.
Local Open Scope R_scope.

(** the exact pixel for real parameters *)
Definition pixR (fx fy skew cx cy : R) (y : V3 R) : V2 R := mkV2 ((fx * vx y + skew * vy y) / vz y + cx) (fy * vy y / vz y + cy).

Lemma Rabs_tri3 a b c : Rabs (a - c) <= Rabs (a - b) + Rabs (b - c).
Proof. replace (a - c) with ((a - b) + (b - c)) by ring. apply Rabs_triang. Qed.
Lemma prod_diff a a' x x' A X e d : Rabs a <= A -> Rabs x' <= X -> Rabs (a' - a) <= e -> Rabs (x' - x) <= d -> Rabs (a' * x' - a * x) <= e * X + A * d.
Proof.
  intros Ha Hx He Hd. replace (a' * x' - a * x) with ((a' - a) * x' + a * (x' - x)) by ring. eapply Rle_trans; [apply Rabs_triang|]. rewrite !Rabs_mult.
  apply Rplus_le_compat; (apply Rmult_le_compat; [apply Rabs_pos|apply Rabs_pos|assumption|assumption]).
Qed.
Lemma quot_diff N N' Z Z' Q e d : 1 <= Z -> 0.99 <= Z' -> Rabs (N / Z) <= Q -> Rabs (N' - N) <= e -> Rabs (Z' - Z) <= d -> Rabs (N' / Z' - N / Z) <= 1.011 * (e + Q * d).
Proof.
  intros HZ HZ' HQ He Hd. replace (N' / Z' - N / Z) with ((N' - N + - (N / Z * (Z' - Z))) * / Z') by (field; lra). rewrite Rabs_mult.
  assert (I : Rabs (/ Z') <= 1.011). { rewrite Rabs_pos_eq by (left; apply Rinv_0_lt_compat; lra). apply Rle_trans with (/ 0.99); [apply Rinv_le_contravar; lra|lra]. }
  rewrite Rmult_comm. apply Rmult_le_compat; [apply Rabs_pos|apply Rabs_pos|exact I|]. eapply Rle_trans; [apply Rabs_triang|]. rewrite Rabs_Ropp, Rabs_mult.
  apply Rplus_le_compat; [exact He|]. apply Rmult_le_compat; try apply Rabs_pos; assumption.
Qed.

Section F64.
Variables fsin fcos : f64 -> f64.
Local Hint Extern 0 (Ops f64) => exact (f64_ops fsin fcos) : typeclass_instances.
Local Hint Extern 0 (Ops (binary_float 53 1024)) => exact (f64_ops fsin fcos) : typeclass_instances.
Local Notation u := (bpow radix2 (- (53))).

Lemma camera_pixels e (k : PerspectiveParams f64) (qh : Quat f64) ch fx fy skew cx cy q q' c pts : 1 / 10 ^ 12 <= e <= 1 / 10 ^ 8 ->
  0 <= fx <= 2000 -> 0 <= fy <= 2000 -> Rabs skew <= fx -> Rabs cx <= fx -> Rabs cy <= fy ->
  near (fx * e) (pp_fx k) fx -> near (fy * e) (pp_fy k) fy -> near (fx * e) (pp_skew k) skew -> near (fx * e) (pp_cx k) cx -> near (fy * e) (pp_cy k) cy ->
  unit_quat q' -> rotm q' = rotm q -> quat_near e qh q' -> vec_near e ch c -> vle 10 c ->
  Forall (fun x => vec_sized 10 x /\ 1 <= depth q c (vreal x) /\ pix_within 2000 (pixR fx fy skew cx cy (to_camera q c (vreal x)))) pts ->
  exists out, world_to_pixel (camera_new (perspective_from k) (from_rotation_and_camcenter qh ch)) (mkPoints pts) = Some (mkPixels out) /\
    Forall2 (fun x p => pix_near (68 * 10 ^ 5 * e) p (pixR fx fy skew cx cy (to_camera q c (vreal x)))) pts out.
Proof.
  intros E FX FY SK CX CY KX KY KS KC KD U RQ QN CN VC H. pose proof u_f64 as UF.
  assert (FE : fx * e <= 2000 * e) by (apply Rmult_le_compat_r; lra). assert (FE' : fy * e <= 2000 * e) by (apply Rmult_le_compat_r; lra).
  assert (SC : vec_sized 10.001 ch).
  { eapply vec_sized_weak; [eapply vec_near_sized; [exact CN|exact VC]|]. lra. }
  assert (SZ : forall (x : f64) a d, near d x a -> d <= 0.5 -> Rabs a <= 2000 -> sized 0 2001 x).
  { intros x a d (F1 & D1) Hd Ha. split; [exact F1|]. split; [apply Rabs_pos|]. replace (B2R x) with ((B2R x - a) + a) by ring. eapply Rle_trans; [apply Rabs_triang|]. lra. }
  assert (KZ : persp_sized 2001 k).
  { split; [apply (SZ _ _ _ KX); [lra|rewrite Rabs_pos_eq; lra]|]. split; [apply (SZ _ _ _ KY); [lra|rewrite Rabs_pos_eq; lra]|].
    split; [apply (SZ _ _ _ KS); lra|]. split; [apply (SZ _ _ _ KC); lra|apply (SZ _ _ _ KD); lra]. }
  assert (B1 : 512 * 10.001 < bpow radix2 1024) by (apply big_f64; lra).
  assert (B2 : 512 * 2001 * 10.001 < bpow radix2 1024) by (apply big_f64; lra).
  assert (PTS : Forall (fun x => 0.99 <= vz (to_camera q' (vreal ch) (vreal x)) /\
     Rabs (px (pinhole k (to_camera q' (vreal ch) (vreal x))) - px (pixR fx fy skew cx cy (to_camera q c (vreal x)))) <= 16 * 10 ^ 4 * e /\
     Rabs (py (pinhole k (to_camera q' (vreal ch) (vreal x))) - py (pixR fx fy skew cx cy (to_camera q c (vreal x)))) <= 16 * 10 ^ 4 * e) pts).
  { eapply Forall_impl; [|exact H]. intros x (SX & Z1 & (W1 & W2)). unfold depth in Z1.
    pose proof (vec_near_dist 53 1024 _ _ _ CN) as DC.
    assert (ED : vdist (to_camera q' (vreal ch) (vreal x)) (to_camera q c (vreal x)) <= 1.75 * e).
    { unfold to_camera, vdist. rewrite RQ, <- mv_vsub, orthogonal_len by (rewrite <- RQ; now apply rotm_orthogonal).
      replace (vsub (vsub (vreal x) (vreal ch)) (vsub (vreal x) c)) with (vsub c (vreal ch)) by (apply V3_eq; ru_spec; ring). change (vdist c (vreal ch) <= 1.75 * e). rewrite vdist_sym. exact DC. }
    assert (YL : vlen (to_camera q' (vreal ch) (vreal x)) <= 35.1).
    { unfold to_camera. rewrite orthogonal_len by now apply rotm_orthogonal. pose proof (vec_sized_vle 53 1024 10 x SX) as V1. pose proof (vec_sized_vle 53 1024 10.001 ch SC) as V2.
      pose proof (vle_vsub _ _ _ _ V1 V2) as V3. destruct V3 as (Q1 & Q2 & Q3). apply Rle_trans with (1.75 * 20.001); [|lra]. apply vlen_bound; [lra|..]; (eapply Rle_trans; [eassumption|lra]). }
    set (y' := to_camera q' (vreal ch) (vreal x)) in *. set (y := to_camera q c (vreal x)) in *.
    assert (DX : Rabs (vx y' - vx y) <= 1.75 * e) by (eapply Rle_trans; [apply (comp_le (vsub y' y))|exact ED]).
    assert (DY : Rabs (vy y' - vy y) <= 1.75 * e) by (eapply Rle_trans; [apply (comp_le (vsub y' y))|exact ED]).
    assert (DZ : Rabs (vz y' - vz y) <= 1.75 * e) by (eapply Rle_trans; [apply (comp_le (vsub y' y))|exact ED]).
    assert (LX : Rabs (vx y') <= 35.1) by (eapply Rle_trans; [apply comp_le|exact YL]).
    assert (LY : Rabs (vy y') <= 35.1) by (eapply Rle_trans; [apply comp_le|exact YL]).
    assert (Z' : 0.99 <= vz y') by (apply Rabs_le_inv in DZ; lra). split; [exact Z'|].
    destruct KX as (_ & KX), KY as (_ & KY), KS as (_ & KS), KC as (_ & KC), KD as (_ & KD).
    assert (AX : Rabs fx <= 2000) by (rewrite Rabs_pos_eq; lra). assert (AY : Rabs fy <= 2000) by (rewrite Rabs_pos_eq; lra). assert (AS : Rabs skew <= 2000) by lra.
    pose proof (prod_diff _ _ _ _ _ _ _ _ AX LX (Rle_trans _ _ _ KX FE) DX) as P1. pose proof (prod_diff _ _ _ _ _ _ _ _ AS LY (Rle_trans _ _ _ KS FE) DY) as P2.
    pose proof (prod_diff _ _ _ _ _ _ _ _ AY LY (Rle_trans _ _ _ KY FE') DY) as P3.
    unfold pixR in W1, W2 |- *. unfold pinhole. cbn [px py] in *.
    assert (Q1 : Rabs ((fx * vx y + skew * vy y) / vz y) <= 4000).
    { replace ((fx * vx y + skew * vy y) / vz y) with (((fx * vx y + skew * vy y) / vz y + cx) - cx) by ring. eapply Rle_trans; [apply Rabs_triang|]. rewrite Rabs_Ropp. lra. }
    assert (Q2 : Rabs (fy * vy y / vz y) <= 4000).
    { replace (fy * vy y / vz y) with ((fy * vy y / vz y + cy) - cy) by ring. eapply Rle_trans; [apply Rabs_triang|]. rewrite Rabs_Ropp. lra. }
    assert (N1 : Rabs ((B2R (pp_fx k) * vx y' + B2R (pp_skew k) * vy y') - (fx * vx y + skew * vy y)) <= 2 * (2000 * e * 35.1 + 2000 * (1.75 * e))).
    { replace ((B2R (pp_fx k) * vx y' + B2R (pp_skew k) * vy y') - (fx * vx y + skew * vy y)) with ((B2R (pp_fx k) * vx y' - fx * vx y) + (B2R (pp_skew k) * vy y' - skew * vy y)) by ring.
      eapply Rle_trans; [apply Rabs_triang|]. lra. }
    pose proof (quot_diff _ _ _ _ _ _ _ Z1 Z' Q1 N1 DZ) as R1. pose proof (quot_diff _ _ _ _ _ _ _ Z1 Z' Q2 P3 DZ) as R2.
    split.
    - match goal with |- Rabs (?a + ?b - (?c + ?d)) <= _ => replace (a + b - (c + d)) with ((a - c) + (b - d)) by ring end. eapply Rle_trans; [apply Rabs_triang|]. eapply Rle_trans; [apply Rplus_le_compat; [exact R1|exact KC]|]. clear -FE E. lra.
    - match goal with |- Rabs (?a + ?b - (?c + ?d)) <= _ => replace (a + b - (c + d)) with ((a - c) + (b - d)) by ring end. eapply Rle_trans; [apply Rabs_triang|]. eapply Rle_trans; [apply Rplus_le_compat; [exact R2|exact KD]|]. clear -FE' E. lra. }
  assert (QN' : quat_near (8 * (e / 8)) qh q') by (replace (8 * (e / 8)) with e by field; exact QN).
  destruct (proj1 (C70_lemma 53 1024 f64_prec f64_emax fsin fcos (e / 8) ltac:(lra) ltac:(lra) ltac:(lia) qh q' ch 10.001 U QN' SC ltac:(lra) B1 2001 pts
    ltac:(lra) B2 ltac:(eapply Forall_impl; [|exact H]; intros x (SX & _); eapply vec_sized_weak; [exact SX|lra])) k KZ 0.99 ltac:(lra) ltac:(lra)) as (out & EO & W).
  - rewrite Forall_forall in PTS, H |- *. intros x Hx. destruct (PTS x Hx) as (Z' & D1 & D2). destruct (H x Hx) as (_ & _ & (W1 & W2)). split; [exact Z'|].
    split; [apply Rabs_le; apply Rabs_le_inv in D1, W1|apply Rabs_le; apply Rabs_le_inv in D2, W2]; lra.
  - exists out. split; [exact EO|]. clear EO H. induction W as [|x p l l' W1 _ IH]; [constructor|]. inversion PTS as [|? ? (Z' & D1 & D2) PT']; subst. constructor; [|now apply IH].
    destruct W1 as ((F1 & G1) & (F2 & G2)). assert (TT : 2600 * (e / 8) * 2001 * (10.001 / 0.99) <= 658 * 10 ^ 4 * e) by lra.
    split; (split; [assumption|]).
    + eapply Rle_trans; [apply (Rabs_tri3 _ (px (pinhole k (to_camera q' (vreal ch) (vreal x)))))|]. lra.
    + eapply Rle_trans; [apply (Rabs_tri3 _ (py (pinhole k (to_camera q' (vreal ch) (vreal x)))))|]. lra.
Qed.

(** ** C123 *)
Lemma pinhole_pixR (k : PerspectiveParams f64) y : pinhole k y = pixR (B2R (pp_fx k)) (B2R (pp_fy k)) (B2R (pp_skew k)) (B2R (pp_cx k)) (B2R (pp_cy k)) y.
Proof. reflexivity. Qed.
Lemma C123_lemma (k : PerspectiveParams f64) (qh : Quat f64) q c pts : unit_quat q -> quat_near (8 * u) qh q -> vec_sized 10 c ->
  sized 1 2000 (pp_fx k) -> sized 1 2000 (pp_fy k) -> 0 < B2R (pp_fx k) -> 0 < B2R (pp_fy k) ->
  sized 0 (B2R (pp_fx k)) (pp_skew k) -> sized 0 (B2R (pp_fx k)) (pp_cx k) -> sized 0 (B2R (pp_fy k)) (pp_cy k) ->
  1 <= Rabs (vz (mv (rotm q) (vreal c))) ->
  Forall (fun x => vec_sized 10 x /\ 1 <= depth q (vreal c) (vreal x) /\ pix_within 2000 (pinhole k (to_camera q (vreal c) (vreal x)))) pts ->
  let cam := camera_new (perspective_from k) (from_rotation_and_camcenter qh c) in
  exists cam' out out', from_perspective_matrix (as_camera_matrix cam) = Some (Ok cam') /\
    world_to_pixel cam (mkPoints pts) = Some (mkPixels out) /\ world_to_pixel cam' (mkPoints pts) = Some (mkPixels out') /\
    Forall2 (pixel_within (1 / 20)) out out' /\
    Forall2 (fun x p => pix_near (1 / 20) p (pinhole k (to_camera q (vreal c) (vreal x)))) pts out'.
Proof.
  intros U N C FX FY PX PY SK CX CY D H cam. pose proof u_f64 as UF. assert (U0 : 0 < u) by apply bpow_gt_0.
  assert (FX' : 1 <= B2R (pp_fx k) <= 2000) by (destruct FX as (_ & FX); rewrite Rabs_pos_eq in FX; lra).
  assert (FY' : 1 <= B2R (pp_fy k) <= 2000) by (destruct FY as (_ & FY); rewrite Rabs_pos_eq in FY; lra).
  assert (C100 : vec_sized 100 c) by (eapply vec_sized_weak; [exact C|lra]).
  assert (SW : forall (x : f64) a b c d, sized a b x -> c <= 0 -> b <= d -> sized c d x).
  { intros x a0 b0 c0 d0 (F1 & F2) L1 L2. split; [exact F1|]. pose proof (Rabs_pos (B2R x)). lra. }
  assert (KZ : forall P, 2000 <= P -> persp_sized P k).
  { intros P HP. split; [apply (SW _ _ _ 0 P FX); lra|]. split; [apply (SW _ _ _ 0 P FY); lra|]. split; [apply (SW _ _ _ 0 P SK); lra|]. split; [apply (SW _ _ _ 0 P CX); lra|apply (SW _ _ _ 0 P CY); lra]. }
  destruct (C109b_lemma fsin fcos k qh q c U N C100 (KZ 10000 ltac:(lra)) ltac:(apply FX') ltac:(apply FY') ltac:(apply SK) ltac:(apply CX) ltac:(apply CY) D)
    as (k' & qh' & ch & q' & EM & K1 & K2 & K3 & K4 & K5 & U' & RQ & QN & CN).
  assert (CN' : vec_near (6 / 1000000000) ch (vreal c)) by (eapply vec_near_weak; [exact CN|lra]).
  destruct (camera_pixels (6 / 1000000000) k' qh' ch (B2R (pp_fx k)) (B2R (pp_fy k)) (B2R (pp_skew k)) (B2R (pp_cx k)) (B2R (pp_cy k)) q q' (vreal c) pts ltac:(lra) ltac:(lra) ltac:(lra) ltac:(apply SK) ltac:(apply CX) ltac:(apply CY) K1 K2 K3 K4 K5 U' RQ QN CN' (vec_sized_vle 53 1024 10 c C) H)
    as (out' & E' & W').
  assert (B1 : 512 * 10 < bpow radix2 1024) by (apply big_f64; lra).
  assert (B2 : 512 * 2000 * 10 < bpow radix2 1024) by (apply big_f64; lra).
  destruct (proj1 (C70_lemma 53 1024 f64_prec f64_emax fsin fcos u (Rle_refl _) ltac:(lra) ltac:(lia) qh q c 10 U N C ltac:(lra) B1 2000 pts
    ltac:(lra) B2 ltac:(eapply Forall_impl; [|exact H]; intros x (SX & _); exact SX)) k (KZ 2000 ltac:(lra)) 1 ltac:(lra) ltac:(lra)) as (out & EO & W).
  { eapply Forall_impl; [|exact H]. intros x (_ & Q). exact Q. }
  exists (camera_new (perspective_from k') (from_rotation_and_camcenter qh' ch)), out, out'.
  split; [exact EM|]. split; [exact EO|]. split; [exact E'|]. split.
  - clear -W W' UF U0. revert out' W'. induction W as [|x p l l' W1 _ IH]; intros out' W'; inversion W' as [|? p' ? l'' W2 W3]; subst; constructor; [|now apply IH].
    destruct W1 as ((F1 & G1) & (F2 & G2)), W2 as ((F3 & G3) & (F4 & G4)). rewrite pinhole_pixR in G1, G2. rewrite Rabs_minus_sym in G1, G2.
    assert (T : 2600 * u * 2000 * (10 / 1) <= 1 / 1000) by lra.
    split; [exact F3|]. split; [exact F4|]. split; [eapply Rle_trans; [apply Rabs_tri3|]; eapply Rle_trans; [apply Rplus_le_compat; [exact G3|exact G1]|]; lra|
      eapply Rle_trans; [apply Rabs_tri3|]; eapply Rle_trans; [apply Rplus_le_compat; [exact G4|exact G2]|]; lra].
  - eapply Forall2_impl'; [|exact W']. intros x p Hx. rewrite pinhole_pixR. eapply pix_near_weak; [exact Hx|lra].
Qed.

(** ** C124 *)
Lemma hproject_scaled s fx fy skew cx cy q c x : s <> 0 -> depth q c x <> 0 -> hproject (scaled_matrix s fx fy skew cx cy q c) x = pixR fx fy skew cx cy (to_camera q c x).
Proof.
  intros S. unfold depth. assert (E : happly (scaled_matrix s fx fy skew cx cy q c) x = vscl s (mv (kmat fx fy skew cx cy) (to_camera q c x))).
  { unfold scaled_matrix, to_camera. generalize (rotm q). intros m. apply V3_eq; destruct m, x, c; unfold happly, left33, col4, hstack, kmat; ru_spec; ring. }
  unfold hproject. rewrite E. set (y := to_camera q c x). intros Z. unfold pixR, kmat. destruct y as [a b d]. cbn [vz] in Z. cbn [mv vscl vx vy vz m00 m01 m02 m10 m11 m12 m20 m21 m22].
  apply V2_eq; ru_spec; field; auto.
Qed.
Lemma C124_lemma (p : M34 f64) s fx fy skew cx cy q c pts :
  / 1000000 <= Rabs s <= 1000000 -> 1 <= fx <= 2000 -> 1 <= fy <= 2000 -> Rabs skew <= fx -> Rabs cx <= fx -> Rabs cy <= fy ->
  unit_quat q -> vlen c <= 10 -> entries_near (bpow radix2 (-52)) p (scaled_matrix s fx fy skew cx cy q c) ->
  Forall (fun x => vec_sized 10 x /\ 1 <= depth q c (vreal x) /\ pix_within 2000 (hproject (scaled_matrix s fx fy skew cx cy q c) (vreal x))) pts ->
  exists cam out, from_perspective_matrix p = Some (Ok cam) /\ world_to_pixel cam (mkPoints pts) = Some (mkPixels out) /\
    Forall2 (fun x px => pix_near (1 / 2000) px (hproject (scaled_matrix s fx fy skew cx cy q c) (vreal x))) pts out.
Proof.
  intros S FX FY SK CX CY U C E H.
  assert (S0 : s <> 0) by (intros ->; rewrite Rabs_R0 in S; lra).
  destruct (C108b_lemma fsin fcos p s fx fy skew cx cy q c S ltac:(lra) ltac:(lra) SK CX CY U ltac:(lra) E) as (k & qh & ch & q' & EM & K1 & K2 & K3 & K4 & K5 & U' & RQ & QN & CN).
  assert (W : forall (x : f64) a g, 0 <= g -> near (g * (3 / 100000000000)) x a -> near (g * (6 / 100000000000)) x a) by (intros x a g G (F1 & F2); split; [exact F1|lra]).
  assert (VC : vle 10 c) by (destruct (comp_le c) as (C1 & C2 & C3); repeat split; lra).
  assert (QN' : quat_near (6 / 100000000000) qh q').
  { destruct QN as ((Q1 & Q2) & (Q3 & Q4) & (Q5 & Q6) & (Q7 & Q8)). repeat split; try assumption; lra. }
  destruct (camera_pixels (6 / 100000000000) k qh ch fx fy skew cx cy q q' c pts) as (out & EO & WO); try assumption; try lra; try (apply W; [lra|assumption]).
  { eapply Forall_impl; [|exact H]. intros x (H1 & H2 & H3). rewrite hproject_scaled in H3 by (try exact S0; lra). auto. }
  exists (camera_new (perspective_from k) (from_rotation_and_camcenter qh ch)), out. split; [exact EM|]. split; [exact EO|].
  clear EO. induction WO as [|x px l l' W1 _ IH]; [constructor|]. inversion H as [|? ? (H1 & H2 & H3) H']; subst. constructor; [|now apply IH].
  rewrite hproject_scaled by (try exact S0; lra). eapply pix_near_weak; [exact W1|lra].
Qed.
End F64.
