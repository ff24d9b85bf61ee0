(** * FloatSvdProofs33.v - triangulation with cameras given by matrices (C127) *)

From Coq Require Import ZArith Reals List Bool Lra Lia Psatz.
From Flocq Require Import Core BinarySingleNaN.
From Verif Require Import Scalar Linalg Householder Bundles Perspective Extrinsics Orthographic Camera RayIntersection SymEigen Spec SpecGeom SpecIsect SpecTri SpecFloatErr SpecFloatIsect SpecFloatTri SpecFloatMat SpecFloatRQ SpecFloatTri4 Rows RealBase VecLemmas ExtrinsicsProofs TriProofs FromViewProofs SpectralProofs CamMatProofs FloatBase FloatRound FloatErrProofs FloatErrProofs2 FloatApprox FloatRigidProofs
  FloatProjProofs FloatDirProofs FloatViewProofs FloatWorldProofs FloatIsectProofs4 FloatIsectProofs5 FloatTriProofs FloatTriProofs2 FloatRQProofs6 FloatRQProofs7 FloatRQProofs8 FloatSvdProofs26.
Import ListNotations.
Local Open Scope R_scope.

Section F64.
Variables fsin fcos : f64 -> f64.
Local Hint Extern 0 (Ops f64) => exact (f64_ops fsin fcos) : typeclass_instances.
Local Hint Extern 0 (Ops (binary_float 53 1024)) => exact (f64_ops fsin fcos) : typeclass_instances.
Local Notation u := (bpow radix2 (- (53))).

(** the exact pixel of a camera with slightly different parameters and center *)
Lemma pixel_shift e (k : PerspectiveParams f64) (ch : V3 f64) fx fy skew cx cy q q' c x : 1 / 10 ^ 12 <= e <= 1 / 10 ^ 8 ->
  0 <= fx <= 2000 -> 0 <= fy <= 2000 -> Rabs skew <= fx -> Rabs cx <= fx -> Rabs cy <= fy ->
  near (fx * e) (pp_fx k) fx -> near (fy * e) (pp_fy k) fy -> near (fx * e) (pp_skew k) skew -> near (fx * e) (pp_cx k) cx -> near (fy * e) (pp_cy k) cy ->
  unit_quat q' -> rotm q' = rotm q -> vec_near e ch c -> vle 10 c -> vle 10 x ->
  1 <= depth q c x -> pix_within 2010 (pixR fx fy skew cx cy (to_camera q c x)) ->
  vdist (to_camera q' (vreal ch) x) (to_camera q c x) <= 1.75 * e /\
  Rabs (px (pinhole k (to_camera q' (vreal ch) x)) - px (pixR fx fy skew cx cy (to_camera q c x))) <= 16 * 10 ^ 4 * e /\
  Rabs (py (pinhole k (to_camera q' (vreal ch) x)) - py (pixR fx fy skew cx cy (to_camera q c x))) <= 16 * 10 ^ 4 * e.
Proof.
  intros E FX FY SK CX CY KX KY KS KC KD U RQ CN VC VX Z1 (W1 & W2). unfold depth in Z1.
  assert (FE : fx * e <= 2000 * e) by (apply Rmult_le_compat_r; lra). assert (FE' : fy * e <= 2000 * e) by (apply Rmult_le_compat_r; lra).
  assert (SC : vec_sized 10.001 ch).
  { eapply vec_sized_weak; [eapply vec_near_sized; [exact CN|exact VC]|]. lra. }
  pose proof (vec_near_dist 53 1024 _ _ _ CN) as DC.
  assert (ED : vdist (to_camera q' (vreal ch) x) (to_camera q c x) <= 1.75 * e).
  { unfold to_camera, vdist. rewrite RQ, <- mv_vsub, orthogonal_len by (rewrite <- RQ; now apply rotm_orthogonal).
    replace (vsub (vsub x (vreal ch)) (vsub x c)) with (vsub c (vreal ch)) by (apply V3_eq; ru_spec; ring). change (vdist c (vreal ch) <= 1.75 * e). rewrite vdist_sym. exact DC. }
  split; [exact ED|].
  assert (YL : vlen (to_camera q' (vreal ch) x) <= 35.1).
  { unfold to_camera. rewrite orthogonal_len by now apply rotm_orthogonal. pose proof (vec_sized_vle 53 1024 10.001 ch SC) as V2.
    pose proof (vle_vsub _ _ _ _ VX V2) as V3. destruct V3 as (Q1 & Q2 & Q3). apply Rle_trans with (1.75 * 20.001); [|lra]. apply vlen_bound; [lra|..]; (eapply Rle_trans; [eassumption|lra]). }
  set (y' := to_camera q' (vreal ch) x) in *. set (y := to_camera q c x) in *.
  assert (DX : Rabs (vx y' - vx y) <= 1.75 * e) by (eapply Rle_trans; [apply (comp_le (vsub y' y))|exact ED]).
  assert (DY : Rabs (vy y' - vy y) <= 1.75 * e) by (eapply Rle_trans; [apply (comp_le (vsub y' y))|exact ED]).
  assert (DZ : Rabs (vz y' - vz y) <= 1.75 * e) by (eapply Rle_trans; [apply (comp_le (vsub y' y))|exact ED]).
  assert (LX : Rabs (vx y') <= 35.1) by (eapply Rle_trans; [apply comp_le|exact YL]).
  assert (LY : Rabs (vy y') <= 35.1) by (eapply Rle_trans; [apply comp_le|exact YL]).
  assert (Z' : 0.99 <= vz y') by (apply Rabs_le_inv in DZ; lra).
  destruct KX as (_ & KX), KY as (_ & KY), KS as (_ & KS), KC as (_ & KC), KD as (_ & KD).
  assert (AX : Rabs fx <= 2000) by (rewrite Rabs_pos_eq; lra). assert (AY : Rabs fy <= 2000) by (rewrite Rabs_pos_eq; lra). assert (AS : Rabs skew <= 2000) by lra.
  pose proof (prod_diff _ _ _ _ _ _ _ _ AX LX (Rle_trans _ _ _ KX FE) DX) as P1. pose proof (prod_diff _ _ _ _ _ _ _ _ AS LY (Rle_trans _ _ _ KS FE) DY) as P2.
  pose proof (prod_diff _ _ _ _ _ _ _ _ AY LY (Rle_trans _ _ _ KY FE') DY) as P3.
  unfold pixR in W1, W2 |- *. unfold pinhole. cbn [px py] in *.
  assert (Q1 : Rabs ((fx * vx y + skew * vy y) / vz y) <= 4010).
  { replace ((fx * vx y + skew * vy y) / vz y) with (((fx * vx y + skew * vy y) / vz y + cx) - cx) by ring. eapply Rle_trans; [apply Rabs_triang|]. rewrite Rabs_Ropp. lra. }
  assert (Q2 : Rabs (fy * vy y / vz y) <= 4010).
  { replace (fy * vy y / vz y) with ((fy * vy y / vz y + cy) - cy) by ring. eapply Rle_trans; [apply Rabs_triang|]. rewrite Rabs_Ropp. lra. }
  assert (N1 : Rabs ((B2R (pp_fx k) * vx y' + B2R (pp_skew k) * vy y') - (fx * vx y + skew * vy y)) <= 2 * (2000 * e * 35.1 + 2000 * (1.75 * e))).
  { replace ((B2R (pp_fx k) * vx y' + B2R (pp_skew k) * vy y') - (fx * vx y + skew * vy y)) with ((B2R (pp_fx k) * vx y' - fx * vx y) + (B2R (pp_skew k) * vy y' - skew * vy y)) by ring.
    eapply Rle_trans; [apply Rabs_triang|]. lra. }
  pose proof (quot_diff _ _ _ _ _ _ _ Z1 Z' Q1 N1 DZ) as R1. pose proof (quot_diff _ _ _ _ _ _ _ Z1 Z' Q2 P3 DZ) as R2.
  split.
  - match goal with |- Rabs (?a + ?b - (?c + ?d)) <= _ => replace (a + b - (c + d)) with ((a - c) + (b - d)) by ring end. eapply Rle_trans; [apply Rabs_triang|]. eapply Rle_trans; [apply Rplus_le_compat; [exact R1|exact KC]|]. clear -FE E. lra.
  - match goal with |- Rabs (?a + ?b - (?c + ?d)) <= _ => replace (a + b - (c + d)) with ((a - c) + (b - d)) by ring end. eapply Rle_trans; [apply Rabs_triang|]. eapply Rle_trans; [apply Rplus_le_compat; [exact R2|exact KD]|]. clear -FE' E. lra.
Qed.

Lemma seen_mcam Z eps X a : 0 <= eps <= 10 -> vle 10 X -> good_mcam Z eps X a ->
  exists r t, mc_ray a = Some r /\ seen_persp 7.5e-12 21 2001 499 (1.001 * Z) (eps + 1e-5) X r t /\
    ray_direction t <> vO /\ vsub X (mc_c a) <> vO /\ vdist (vscl 1 (ray_direction t)) (vsub X (mc_c a)) <= 1.1e-10 * vlen (vsub X (mc_c a)).
Proof.
  intros EP VX (S & FX & FY & SK & CX & CY & U & C & E & (D1 & DZ) & PX & PY & PN). destruct a as [p s fx fy skew cx cy q c o]. unfold mc_exact, mc_ray in *.
  cbn [mc_p mc_s mc_fx mc_fy mc_skew mc_cx mc_cy mc_q mc_c mc_px] in *.
  assert (S0 : s <> 0) by (intros ->; rewrite Rabs_R0 in S; lra).
  rewrite hproject_scaled in PN by (try exact S0; lra).
  destruct (C108b_lemma fsin fcos p s fx fy skew cx cy q c S ltac:(lra) ltac:(lra) ltac:(lra) CX CY U ltac:(lra) E) as (k & qh & ch & q' & EM & K1 & K2 & K3 & K4 & K5 & U' & RQ & QN & CN).
  set (e := 6 / 100000000000) in *. assert (E0 : e = 6e-11) by (unfold e; lra).
  assert (W : forall (x : f64) a g, 0 <= g -> near (g * (3 / 100000000000)) x a -> near (g * e) x a) by (intros x a g G (F1 & F2); split; [exact F1|unfold e; lra]).
  apply W in K1; [|lra]. apply W in K2; [|lra]. apply W in K3; [|lra]. apply W in K4; [|lra]. apply W in K5; [|lra].
  assert (VC : vle 10 c) by (destruct (comp_le c) as (C1 & C2 & C3); repeat split; lra).
  assert (QN' : quat_near (8 * 7.5e-12) qh q').
  { destruct QN as ((Q1 & Q2) & (Q3 & Q4) & (Q5 & Q6) & (Q7 & Q8)). repeat split; try assumption; lra. }
  assert (PW : pix_within 2010 (pixR fx fy skew cx cy (to_camera q c X))).
  { destruct PN as ((_ & N1) & (_ & N2)), PX as (_ & (_ & P1)), PY as (_ & (_ & P2)).
    split; [apply Rabs_le; apply Rabs_le_inv in N1, P1; lra|apply Rabs_le; apply Rabs_le_inv in N2, P2; lra]. }
  destruct (pixel_shift e k ch fx fy skew cx cy q q' c X) as (DD & DX & DY); try assumption; try lra.
  assert (DZ' : Rabs (depth q' (vreal ch) X - depth q c X) <= 1.75 * e).
  { unfold depth. eapply Rle_trans; [apply (comp_le (vsub (to_camera q' (vreal ch) X) (to_camera q c X)))|exact DD]. }
  apply Rabs_le_inv in DZ'.
  assert (SC : vec_sized 21 ch) by (eapply vec_sized_weak; [eapply vec_near_sized; [exact CN|exact VC]|lra]).
  assert (FE : fx * e <= 2000 * e) by (apply Rmult_le_compat_r; lra). assert (FE' : fy * e <= 2000 * e) by (apply Rmult_le_compat_r; lra).
  destruct K1 as (G1 & K1), K2 as (G2 & K2), K3 as (G3 & K3), K4 as (G4 & K4), K5 as (G5 & K5).
  apply Rabs_le_inv in K1, K2, K3, K4, K5.
  pose proof (Rabs_le_inv _ _ SK) as SK'. pose proof (Rabs_le_inv _ _ CX) as CX'. pose proof (Rabs_le_inv _ _ CY) as CY'.
  assert (LC : 1 <= vlen (vsub X c)).
  { eapply Rle_trans; [exact D1|]. eapply Rle_trans; [apply Rle_abs|]. unfold depth. eapply Rle_trans; [apply comp_le|]. unfold to_camera. rewrite orthogonal_len by now apply rotm_orthogonal. lra. }
  assert (LT : vdist (vsub X (vreal ch)) (vsub X c) <= 1.05e-10).
  { unfold vdist. replace (vsub (vsub X (vreal ch)) (vsub X c)) with (vsub c (vreal ch)) by (apply V3_eq; ru_spec; ring). change (vdist c (vreal ch) <= 1.05e-10). rewrite vdist_sym.
    eapply Rle_trans; [exact (vec_near_dist 53 1024 _ _ _ CN)|]. lra. }
  assert (NC : vsub X c <> vO) by (intros G; rewrite G in LC; replace (vlen vO) with 0 in LC; [lra|unfold vlen; replace (vdot vO vO) with 0 by (ru_spec; ring); now rewrite sqrt_0]).
  exists (mkRay (iso_transform_point (c_pose_inv (e_cache (from_rotation_and_camcenter qh ch))) v3_zero)
    (iso_transform_vector (c_pose_inv (e_cache (from_rotation_and_camcenter qh ch))) (persp_unproject_row k o))), (mkRay (vreal ch) (vsub X (vreal ch))).
  pose proof (persp_ray_eq 53 1024 f64_prec f64_emax fsin fcos qh ch k o) as RE.
  split; [match goal with |- match ?x with _ => _ end = _ => let E := fresh in pose proof (EM : x = _) as E; rewrite E end; exact RE|]. split.
  - exists k, qh, q', ch, o. split; [exact U'|]. split; [exact QN'|]. split; [exact SC|].
    assert (BX : Rabs (B2R (pp_fx k)) <= 2001) by (apply Rabs_le; lra).
    assert (BY : Rabs (B2R (pp_fy k)) <= 2001) by (apply Rabs_le; lra).
    assert (BS : Rabs (B2R (pp_skew k)) <= 2001) by (apply Rabs_le; lra).
    assert (BC : Rabs (B2R (pp_cx k)) <= 2001) by (apply Rabs_le; lra).
    assert (BD : Rabs (B2R (pp_cy k)) <= 2001) by (apply Rabs_le; lra).
    split; [exact (conj (conj G1 (conj (Rabs_pos _) BX)) (conj (conj G2 (conj (Rabs_pos _) BY)) (conj (conj G3 (conj (Rabs_pos _) BS)) (conj (conj G4 (conj (Rabs_pos _) BC)) (conj G5 (conj (Rabs_pos _) BD))))))|].
    assert (AF : 499 <= B2R (pp_fx k)) by lra. assert (AF' : 499 <= B2R (pp_fy k)) by lra.
    assert (AG : Rabs (B2R (pp_skew k)) <= Rabs (B2R (pp_fy k))) by (rewrite (Rabs_pos_eq (B2R (pp_fy k))) by lra; apply Rabs_le; lra).
    split; [exact (conj G3 (conj (Rabs_pos _) AG))|].
    split; [exact (Rle_trans _ _ _ AF (Rle_abs _))|]. split; [exact (Rle_trans _ _ _ AF' (Rle_abs _))|].
    split; [destruct PX as (P1 & P2); split; [exact P1|lra]|]. split; [destruct PY as (P1 & P2); split; [exact P1|lra]|].
    split; [rewrite Rabs_pos_eq by lra; lra|].
    split; [|split; [exact RE|reflexivity]].
    destruct PN as ((P1 & P2) & (P3 & P4)). rewrite Rabs_minus_sym in DX, DY.
    split; (split; [assumption|]); (eapply Rle_trans; [apply Rabs_tri3|]).
    + eapply Rle_trans; [apply Rplus_le_compat; [exact P2|exact DX]|]. lra.
    + eapply Rle_trans; [apply Rplus_le_compat; [exact P4|exact DY]|]. lra.
  - cbn [ray_direction]. split.
    + intros G. rewrite G in LT. rewrite vdist_sym in LT. unfold vdist in LT. replace (vsub (vsub X c) vO) with (vsub X c) in LT by (apply V3_eq; ru_spec; ring). lra.
    + split; [exact NC|]. replace (vscl 1 (vsub X (vreal ch))) with (vsub X (vreal ch)) by (apply V3_eq; ru_spec; ring). lra.
Qed.

Lemma C127_lemma Z eps X (cams : list mcam) lam : let n := INR (length cams) in
  1 <= Z -> 0 <= eps <= 10 -> (2 <= length cams)%nat -> n <= 1000 -> vlen X <= 10 -> Forall (good_mcam Z eps X) cams ->
  n <= 10 ^ 4 * lam -> eps * n <= 10 * lam ->
  spread lam (map (fun a => mkRay (Coords := WorldFrame) (mc_c a) (vsub X (mc_c a))) cams) ->
  exists rays, Forall2 (fun a r => mc_ray a = Some r) cams rays /\
    exists x', best_intersection_of_rays (fun x : f64 => Some x) (fun x : f64 => x) svd3_try_new rays = Some (Ok (mkPoints [x'])) /\ vec_finite x' /\
      vdist (vreal x') X <= sqrt (n / lam) * Z * (8 / 1000 * eps + 7 / 10 ^ 7) + 4 / 10 ^ 6 * (n / lam) * (1 + vlen X).
Proof.
  intros n Z1 EP L N3 VL G NL EL SP. assert (VX : vle 10 X) by (destruct (comp_le X) as (V1 & V2 & V3); repeat split; lra). pose proof u_f64 as U. assert (U0 : 0 < u) by apply bpow_gt_0.
  assert (N2 : 2 <= n) by (apply (le_INR 2); exact L). assert (L0 : 0 < lam) by lra.
  assert (R : exists rays truth, Forall2 (fun a r => mc_ray a = Some r) cams rays /\
     Forall2 (fun r t => seen_persp 7.5e-12 21 2001 499 (1.001 * Z) (eps + 1e-5) X r t \/ seen_ortho 7.5e-12 21 2001 499 (1.001 * Z) (eps + 1e-5) X r t) rays truth /\
     Forall2 (fun r t => ray_direction r <> vO /\ ray_direction t <> vO /\
             exists z, vdist (vscl z (ray_direction r)) (ray_direction t) <= 1.1e-10 * vlen (ray_direction t)) truth
       (map (fun a => mkRay (Coords := WorldFrame) (mc_c a) (vsub X (mc_c a))) cams) /\ length rays = length cams /\ length truth = length cams).
  { clear L N2 N3 NL EL SP n L0. induction G as [|a l H _ (rays & truth & A & B & D & M1 & M2)]; [exists [], []; repeat constructor|].
    destruct (seen_mcam Z eps X a EP VX H) as (r & t & E & S & T1 & T2 & T3). exists (r :: rays), (t :: truth). split; [constructor; assumption|].
    split; [constructor; [left; exact S|assumption]|]. split; [cbn [map]; constructor; [|assumption]; cbn [ray_direction]; eauto|]. cbn [length]. now rewrite M1, M2. }
  destruct R as (rays & truth & A & B & D & M1 & M2). exists rays. split; [exact A|].
  assert (M1' : @length (Ray WorldFrame f64) rays = length cams) by exact M1.
  apply (tilt_spread truth) with (s := 1.1e-10) in SP; [|lra|exact D]. rewrite M2 in SP. fold n in SP.
  set (lam' := lam - 2 * 1.1e-10 * n) in *. assert (LL : (1 - 3e-6) * lam <= lam') by (unfold lam'; lra).
  set (s := 3.5 * ((eps + 1e-5 + 13.2 * 7.5e-12 * 2001) / 499) + 530 * 7.5e-12 * 21).
  assert (S1 : 0 < s) by (unfold s; lra).
  assert (S2 : s <= 7.02e-3 * eps + 1.57e-7) by (unfold s; lra).
  set (mu := lam' - 2 * s * n).
  assert (SN : 2 * s * n <= 0.1436 * lam).
  { apply Rle_trans with (2 * (7.02e-3 * eps + 1.57e-7) * n); [apply Rmult_le_compat_r; lra|lra]. }
  assert (MU : 0.856 * lam <= mu) by (unfold mu; lra).
  assert (BB : 512 * 2001 * 21 < bpow radix2 1024) by (apply big_f64; lra).
  assert (Q : 0 < (n + 1) * u <= 1001 * u) by (split; [apply Rmult_lt_0_compat; lra|apply Rmult_le_compat_r; lra]).
  assert (Q1 : 0 <= n * (25 * u + (n + 1) * u) <= n * (1 / 10 ^ 12)) by (split; [apply Rmult_le_pos; lra|apply Rmult_le_compat_l; lra]).
  set (eta := 3 / 10 ^ 6 * n + 3 * n * (25 * u + (n + 1) * u)).
  assert (ET : 0 <= eta <= 3.001e-6 * n) by (unfold eta; replace (3 * n * (25 * u + (n + 1) * u)) with (3 * (n * (25 * u + (n + 1) * u))) by ring; lra).
  destruct (C119_lemma 53 1024 f64_prec f64_emax fsin fcos fsin fcos 40 (fun x : f64 => Some x) (fun x : f64 => x) 7.5e-12 21 2001 499 (1.001 * Z) (eps + 1e-5) X rays truth (1 / 10 ^ 11) lam')
    as (x' & R1 & FX & DD); try assumption; try lra; try lia.
  - exact id_exact.
  - exact id_rounds.
  - rewrite ?M1, ?M1'. fold n. replace (bpow radix2 40) with 1099511627776 by (simpl; lra). lra.
  - rewrite ?M1, ?M1'. fold n. simpl. lra.
  - rewrite ?M1, ?M1'. fold n. change (2 * eta <= mu). lra.
  - exists x'. split; [exact R1|]. split; [exact FX|]. eapply Rle_trans; [exact DD|]. rewrite ?M1, ?M1'. fold n.
    change (3.5 * ((eps + 1e-5 + 13.2 * 7.5e-12 * 2001) / 499) + 530 * 7.5e-12 * 21) with s. change (lam' - 2 * s * n) with mu.
    change (3 / 10 ^ 6 * n + 3 * n * (25 * u + (n + 1) * u)) with eta.
    assert (X0 : 0 <= vlen X) by apply vlen_nonneg. pose proof (Rmult_le_pos Z eps ltac:(lra) ltac:(lra)) as ZE.
    assert (T0 : 0 <= 2600 * 7.5e-12 * 21 + 1.001 * Z * s) by (apply Rplus_le_le_0_compat; [lra|]; apply Rmult_le_pos; lra).
    assert (ZS : Z * s <= 7.02e-3 * (Z * eps) + 1.57e-7 * Z).
    { replace (7.02e-3 * (Z * eps) + 1.57e-7 * Z) with (Z * (7.02e-3 * eps + 1.57e-7)) by ring. apply Rmult_le_compat_l; lra. }
    eapply Rle_trans; [apply (fb119 n lam mu (vlen X) _ eta 21 _ 3.001e-6 6.81e-7 0.0301 0.856 1.081); try lra|].
    pose proof (sqrt_pos (n / lam)) as SQ0. assert (P0 : 0 < n / lam) by (apply Rdiv_lt_0_compat; lra). set (sq := sqrt (n / lam)) in *. set (p := n / lam) in *. clearbody sq p.
    apply Rplus_le_compat.
    + replace (sq * Z * (8 / 1000 * eps + 7 / 10 ^ 7)) with ((8 / 1000 * (Z * eps) + 7 / 10 ^ 7 * Z) * sq) by ring.
      apply Rmult_le_compat_r; [exact SQ0|].
      apply Rle_trans with ((2600 * 7.5e-12 * 21 + 1.001 * Z * s) * 1.1206); [apply Rmult_le_compat_l; lra|]. replace (1.001 * Z * s) with (1.001 * (Z * s)) by ring. lra.
    + rewrite (Rmult_comm (4 / 10 ^ 6)), Rmult_assoc. apply Rmult_le_compat_l; [lra|]. lra.
Qed.
End F64.
