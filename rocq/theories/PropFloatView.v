(** * PropFloatView.v - property theorems C97-C99: rounding errors of looking at a target *)

From Coq Require Import ZArith Reals List Bool Lra Lia.
From Flocq Require Import Core BinarySingleNaN.
From Verif Require Import Scalar Linalg Bundles Extrinsics Perspective Orthographic Camera Spec SpecFloatErr VecLemmas PiProofs FloatViewProofs2.
Import ListNotations.
Local Open Scope R_scope.

(** Any IEEE format with at least 14 bits of precision.  [c] is the center, [l] the
    target, [v] the requested up vector, of length about 1.  [s] is a lower bound of the sine of
    the angle between up vector and view direction.  All lengths lie between [2^-E] and [2^E]. The sine and
    cosine of the library, at the one argument at which they are used, are within
    two units of roundoff of 1 and 0. *)
Section IEEE.
Variables (prec emax : Z) (Hp : Prec_gt_0 prec) (He : Prec_lt_emax prec emax).
Variables fsin fcos : binary_float prec emax -> binary_float prec emax.
Local Notation F := (binary_float prec emax).
Local Hint Extern 0 (Ops (binary_float prec emax)) =>
  exact (B_ops prec emax Hp He fsin fcos) : typeclass_instances.
Local Notation u := (bpow radix2 (- prec)).
Local Notation big := (bpow radix2 emax).

(** C97: the stored quaternion is within 1000 u / s of a unit quaternion whose
    rotation takes the view direction to +z, its horizontal normal to +x and
    the part of the up vector orthogonal to the view direction to -y. *)
Theorem C97_from_view_error (E : Z) (s : R) (c l v : V3 F) : (14 <= prec)%Z -> (17 <= emax)%Z -> (1 <= E)%Z -> (2 * E + 4 <= emax)%Z ->
  0 < s <= 1 -> 16384 * u <= s -> bpow radix2 (- E) <= 0.98 * s ->
  vec_finite c -> vec_finite l -> vec_finite v ->
  let dir := vsub (vreal l) (vreal c) in
  bpow radix2 (- E) <= 0.98 * vlen dir -> 1.02 * vlen dir <= bpow radix2 E ->
  vlen (vreal v) <= 1.01 -> s <= vlen (vcross (vreal v) (vunit dir)) ->
  near (2 * u) (fsin (o_div o_pi64 o_two)) 1 -> near (2 * u) (fcos (o_div o_pi64 o_two)) 0 ->
  exists qh q, from_view c l v = from_rotation_and_camcenter qh c /\ unit_quat q /\ quat_near (1000 * (u / s)) qh q /\
    mv (mtr (rotm q)) (mkV3 0 0 1) = vunit dir /\
    mv (mtr (rotm q)) (mkV3 1 0 0) = vunit (vcross dir (vreal v)) /\
    mv (mtr (rotm q)) (mkV3 0 (-1) 0) = vunit (vsub (vreal v) (vscl (vdot (vreal v) (vunit dir)) (vunit dir))).
Proof. intros P14 E17 E1 E2 S0 SU SE Fc Fl Fv dir. exact (C97_lemma prec emax Hp He fsin fcos P14 E17 E s c l v E1 E2 S0 SU SE Fc Fl Fv). Qed.

(** C98: the reported directions of any stored pose are within 2600 w M of the exact ones. *)
Theorem C98_directions_error (w : R) (qh : Quat F) q c M : (14 <= prec)%Z -> (17 <= emax)%Z -> u <= w -> 150000 * w * M <= 1 ->
  unit_quat q -> quat_near (8 * w) qh q -> vec_sized M c -> 1 <= M -> 512 * M < big ->
  let e := from_rotation_and_camcenter qh c in
  vec_near (2600 * w * M) (forward e) (mv (mtr (rotm q)) (mkV3 0 0 1)) /\
  vec_near (2600 * w * M) (right e) (mv (mtr (rotm q)) (mkV3 1 0 0)) /\
  vec_near (2600 * w * M) (up e) (mv (mtr (rotm q)) (mkV3 0 (-1) 0)).
Proof. intros P14 E17. exact (axes_near prec emax Hp He fsin fcos P14 E17 w qh q c M). Qed.

(** C98: with [from_view] they are close to the requested ones. *)
Theorem C98_from_view_directions (E : Z) (s : R) (c l v : V3 F) (M : R) : (14 <= prec)%Z -> (17 <= emax)%Z -> (1 <= E)%Z -> (2 * E + 4 <= emax)%Z ->
  0 < s <= 1 -> 16384 * u <= s -> bpow radix2 (- E) <= 0.98 * s ->
  vec_finite c -> vec_finite l -> vec_finite v ->
  let dir := vsub (vreal l) (vreal c) in
  bpow radix2 (- E) <= 0.98 * vlen dir -> 1.02 * vlen dir <= bpow radix2 E ->
  vlen (vreal v) <= 1.01 -> s <= vlen (vcross (vreal v) (vunit dir)) ->
  near (2 * u) (fsin (o_div o_pi64 o_two)) 1 -> near (2 * u) (fcos (o_div o_pi64 o_two)) 0 ->
  vec_sized M c -> 1 <= M -> 512 * M < big -> 18750000 * (u / s) * M <= 1 ->
  let e := from_view c l v in
  vec_near (325000 * (u / s) * M) (forward e) (vunit dir) /\
  vec_near (325000 * (u / s) * M) (right e) (vunit (vcross dir (vreal v))) /\
  vec_near (325000 * (u / s) * M) (up e) (vunit (vsub (vreal v) (vscl (vdot (vreal v) (vunit dir)) (vunit dir)))).
Proof. intros P14 E17 E1 E2 S0 SU SE Fc Fl Fv dir LO HI LV SV SN CS. exact (C98b_lemma prec emax Hp He fsin fcos P14 E17 E s c l v E1 E2 S0 SU SE Fc Fl Fv LO HI LV SV SN CS M). Qed.

(** C99: the target is seen at the principal point. *)
Theorem C99_target_at_principal_point (E : Z) (s : R) (c l v : V3 F) (M P : R) : (14 <= prec)%Z -> (17 <= emax)%Z -> (1 <= E)%Z -> (2 * E + 4 <= emax)%Z ->
  0 < s <= 1 -> 16384 * u <= s -> bpow radix2 (- E) <= 0.98 * s ->
  vec_finite c -> vec_finite l -> vec_finite v ->
  let dir := vsub (vreal l) (vreal c) in
  bpow radix2 (- E) <= 0.98 * vlen dir -> 1.02 * vlen dir <= bpow radix2 E ->
  vlen (vreal v) <= 1.01 -> s <= vlen (vcross (vreal v) (vunit dir)) ->
  near (2 * u) (fsin (o_div o_pi64 o_two)) 1 -> near (2 * u) (fcos (o_div o_pi64 o_two)) 0 ->
  vec_sized M c -> vec_sized M l -> 1 <= M -> 512 * M < big -> 1 <= P -> 512 * P * M < big ->
  (forall k : PerspectiveParams F, persp_sized P k -> 5000000 * (u / s) * M <= vlen dir -> 256000 * (u / s) <= 1 ->
     exists p, world_to_pixel (camera_new (perspective_from k) (from_view c l v)) (mkPoints [l]) = Some (mkPixels [p]) /\
       pix_near (325000 * (u / s) * P * (M / vlen dir)) p (mkV2 (B2R (pp_cx k)) (B2R (pp_cy k)))) /\
  (forall k : OrthographicParams F, ortho_sized P k -> 256000 * (u / s) <= 1 ->
     exists p, world_to_pixel (camera_new (orthographic_from k) (from_view c l v)) (mkPoints [l]) = Some (mkPixels [p]) /\
       pix_near (100000 * (u / s) * P * M) p (mkV2 (B2R (op_cx k)) (B2R (op_cy k)))).
Proof. intros P14 E17 E1 E2 S0 SU SE Fc Fl Fv dir LO HI LV SV SN CS. exact (C99_lemma prec emax Hp He fsin fcos P14 E17 E s c l v E1 E2 S0 SU SE Fc Fl Fv LO HI LV SV SN CS M P). Qed.
End IEEE.
Print Assumptions C97_from_view_error.
Print Assumptions C98_directions_error.
Print Assumptions C98_from_view_directions.
Print Assumptions C99_target_at_principal_point.

(** Double precision: center and target within 1000, at distance 1 or more, sine of
    the angle to the up vector 1/10 or more.  The library's sine and cosine of the
    double next to half of pi are off by at most a unit of roundoff, that is they may be any of the two
    doubles next to the exact value. *)
Section F64.
Variables fsin fcos : f64 -> f64.
Local Hint Extern 0 (Ops f64) => exact (f64_ops fsin fcos) : typeclass_instances.
Local Notation u := (bpow radix2 (- (53))).
Local Notation h := (@o_div f64 (f64_ops fsin fcos) o_pi64 o_two).

(** C97 *)
Theorem C97_from_view_f64 (c l v : V3 f64) : vec_sized 1000 c -> vec_sized 1000 l -> vec_finite v -> vlen (vreal v) <= 1.01 ->
  let dir := vsub (vreal l) (vreal c) in
  1 <= vlen dir -> / 10 <= vlen (vcross (vreal v) (vunit dir)) ->
  near u (fsin h) (sin (B2R h)) -> near u (fcos h) (cos (B2R h)) ->
  exists qh q, from_view c l v = from_rotation_and_camcenter qh c /\ unit_quat q /\ quat_near (2 / 1000000000000) qh q /\
    mv (mtr (rotm q)) (mkV3 0 0 1) = vunit dir /\
    mv (mtr (rotm q)) (mkV3 1 0 0) = vunit (vcross dir (vreal v)) /\
    mv (mtr (rotm q)) (mkV3 0 (-1) 0) = vunit (vsub (vreal v) (vscl (vdot (vreal v) (vunit dir)) (vunit dir))).
Proof. exact (C97b_lemma fsin fcos c l v). Qed.

(** C98 *)
Theorem C98_from_view_directions_f64 (c l v : V3 f64) : vec_sized 1000 c -> vec_sized 1000 l -> vec_finite v -> vlen (vreal v) <= 1.01 ->
  let dir := vsub (vreal l) (vreal c) in
  1 <= vlen dir -> / 10 <= vlen (vcross (vreal v) (vunit dir)) ->
  near u (fsin h) (sin (B2R h)) -> near u (fcos h) (cos (B2R h)) ->
  let e := from_view c l v in
  vec_near (4 / 10000000) (forward e) (vunit dir) /\
  vec_near (4 / 10000000) (right e) (vunit (vcross dir (vreal v))) /\
  vec_near (4 / 10000000) (up e) (vunit (vsub (vreal v) (vscl (vdot (vreal v) (vunit dir)) (vunit dir)))).
Proof. exact (C98c_lemma fsin fcos c l v). Qed.

(** C99 *)
Theorem C99_target_at_principal_point_f64 (c l v : V3 f64) (k : PerspectiveParams f64) :
  vec_sized 1000 c -> vec_sized 1000 l -> vec_finite v -> vlen (vreal v) <= 1.01 ->
  let dir := vsub (vreal l) (vreal c) in
  1 <= vlen dir -> / 10 <= vlen (vcross (vreal v) (vunit dir)) ->
  near u (fsin h) (sin (B2R h)) -> near u (fcos h) (cos (B2R h)) -> persp_sized 10000 k ->
  exists p, world_to_pixel (camera_new (perspective_from k) (from_view c l v)) (mkPoints [l]) = Some (mkPixels [p]) /\
    pix_near (4 / 1000) p (mkV2 (B2R (pp_cx k)) (B2R (pp_cy k))).
Proof. intros SC SL SV LV dir D1 AV SN CS. exact (C99b_lemma fsin fcos c l v SC SL SV LV D1 AV SN CS k). Qed.
End F64.
Print Assumptions C97_from_view_f64.
Print Assumptions C98_from_view_directions_f64.
Print Assumptions C99_target_at_principal_point_f64.

(** A camera at (1, 2, 3) which looks at (4, 2, 7), up is +y.  The sine and the cosine
    return 1 and 6.1e-17, the correctly rounded values for the double next to pi/2. *)
Definition ex_sin (x : f64) : f64 := @o_lit f64 (f64_ops (fun y => y) (fun y => y)) 1 0.
Definition ex_cos (x : f64) : f64 := @o_lit f64 (f64_ops (fun y => y) (fun y => y)) 4967757600021511 (-106).
Section Ex.
Local Hint Extern 0 (Ops f64) => exact (f64_ops ex_sin ex_cos) : typeclass_instances.
Local Notation lit m e := (@o_lit f64 (f64_ops ex_sin ex_cos) m%Z e%Z).
Local Notation h := (@o_div f64 (f64_ops ex_sin ex_cos) o_pi64 o_two).
Local Notation u := (bpow radix2 (- (53))).
Local Ltac val := cbv -[IZR Rdiv Rinv Rmult Rplus Ropp]; lra.
Local Ltac size v := split; [reflexivity|];
  match goal with |- _ <= Rabs ?x <= _ => replace x with v; [rewrite Rabs_pos_eq; lra|] end; val.
Definition ex_vc : V3 f64 := mkV3 (lit 1 0) (lit 2 0) (lit 3 0).
Definition ex_vl : V3 f64 := mkV3 (lit 4 0) (lit 2 0) (lit 7 0).
Definition ex_vu : V3 f64 := mkV3 (lit 0 0) (lit 1 0) (lit 0 0).
Definition ex_vk : PerspectiveParams f64 := mkPP (lit 1000 0) (lit 1002 0) (lit 1 (-2)) (lit 321 0) (lit 240 0).
Example ex_vreal : vreal ex_vc = mkV3 1 2 3 /\ vreal ex_vl = mkV3 4 2 7 /\ vreal ex_vu = mkV3 0 1 0.
Proof. unfold vreal, ex_vc, ex_vl, ex_vu. repeat split; f_equal; val. Qed.
Example ex_libm : near u (ex_sin h) (sin (B2R h)) /\ near u (ex_cos h) (cos (B2R h)).
Proof.
  destruct (half_pi_val ex_sin ex_cos) as (_ & V). rewrite V.
  assert (S1 : is_finite (ex_sin h) = true /\ B2R (ex_sin h) = 1) by (split; [reflexivity|val]).
  assert (C1 : is_finite (ex_cos h) = true /\ B2R (ex_cos h) = 4967757600021511 / 81129638414606681695789005144064) by (split; [reflexivity|val]).
  destruct S1 as (Fs & Vs), C1 as (Fc & Vc). unfold near. rewrite Vs, Vc. clear V Vs Vc. change u with (/ 9007199254740992).
  destruct pi64_error as (P1 & P2). set (d := (PI - o_pi64) / 2).
  assert (D0 : 0 < d <= 6.5 / 100000000000000000) by (unfold d; lra).
  assert (C : cos (o_pi64 / 2) = sin d). { rewrite <- cos_shift. f_equal. unfold d. field. }
  assert (S : sin (o_pi64 / 2) = cos d). { rewrite <- sin_shift. f_equal. unfold d. field. }
  assert (SD : 0 <= sin d <= d).
  { split; [apply sin_ge_0; pose proof PI_RGT_0; pose proof PI2_1; lra|left; now apply sin_lt_x]. }
  assert (CD : 1 - d <= cos d <= 1).
  { split; [|apply COS_bound]. pose proof (sin2_cos2 d) as SC. unfold Rsqr in SC. assert (0 <= cos d) by (apply cos_ge_0; pose proof PI2_1; lra). nra. }
  rewrite C, S. split; (split; [assumption|apply Rabs_le; lra]).
Qed.
Example ex_view_hyps : vec_sized 1000 ex_vc /\ vec_sized 1000 ex_vl /\ vec_finite ex_vu /\ vlen (vreal ex_vu) <= 1.01 /\
  vlen (vsub (vreal ex_vl) (vreal ex_vc)) = 5 /\ vunit (vsub (vreal ex_vl) (vreal ex_vc)) = mkV3 (3/5) 0 (4/5) /\
  vlen (vcross (vreal ex_vu) (vunit (vsub (vreal ex_vl) (vreal ex_vc)))) = 1.
Proof.
  destruct ex_vreal as (A & B & C). rewrite A, B, C.
  assert (D : vsub (mkV3 4 2 7) (mkV3 1 2 3) = mkV3 3 0 4) by (unfold vsub; cbn; f_equal; ring). rewrite D.
  assert (L : vlen (mkV3 3 0 4) = 5).
  { unfold vlen, vdot. cbn. replace (3 * 3 + 0 * 0 + 4 * 4) with (5 * 5) by ring. apply sqrt_square. lra. }
  assert (V : vunit (mkV3 3 0 4) = mkV3 (3/5) 0 (4/5)) by (unfold vunit; rewrite L; unfold vscl; cbn; f_equal; lra).
  rewrite V, L. split; [split; [size 1|split; [size 2|size 3]]|]. split; [split; [size 4|split; [size 2|size 7]]|].
  split; [repeat split|]. split; [|split; [reflexivity|split; [reflexivity|]]].
  - unfold vlen, vdot. cbn. replace (0 * 0 + 1 * 1 + 0 * 0) with 1 by ring. rewrite sqrt_1. lra.
  - unfold vlen, vdot, vcross. cbn. match goal with |- sqrt ?x = _ => replace x with 1 by lra end. apply sqrt_1.
Qed.
Example C97_case : exists qh q, from_view ex_vc ex_vl ex_vu = from_rotation_and_camcenter qh ex_vc /\ unit_quat q /\ quat_near (2 / 1000000000000) qh q /\
    mv (mtr (rotm q)) (mkV3 0 0 1) = mkV3 (3/5) 0 (4/5).
Proof.
  destruct ex_view_hyps as (A & B & C & D & L & V & X), ex_libm as (S & K).
  destruct (C97_from_view_f64 ex_sin ex_cos ex_vc ex_vl ex_vu A B C D ltac:(lra) ltac:(lra) S K) as (qh & q & Q1 & Q2 & Q3 & Q4 & _).
  exists qh, q. rewrite <- V. repeat (split; [assumption|]). exact Q4.
Qed.
Example C98_case : vec_near (4 / 10000000) (forward (from_view ex_vc ex_vl ex_vu)) (mkV3 (3/5) 0 (4/5)).
Proof.
  destruct ex_view_hyps as (A & B & C & D & L & V & X), ex_libm as (S & K).
  destruct (C98_from_view_directions_f64 ex_sin ex_cos ex_vc ex_vl ex_vu A B C D ltac:(lra) ltac:(lra) S K) as (Q & _). rewrite V in Q. exact Q.
Qed.
Example C99_case : exists p, world_to_pixel (camera_new (perspective_from ex_vk) (from_view ex_vc ex_vl ex_vu)) (mkPoints [ex_vl]) = Some (mkPixels [p]) /\
    pix_near (4 / 1000) p (mkV2 321 240).
Proof.
  destruct ex_view_hyps as (A & B & C & D & L & V & X), ex_libm as (S & K).
  assert (KS : persp_sized 10000 ex_vk) by (split; [size 1000|split; [size 1002|split; [size (1/4)|split; [size 321|size 240]]]]).
  destruct (C99_target_at_principal_point_f64 ex_sin ex_cos ex_vc ex_vl ex_vu ex_vk A B C D ltac:(lra) ltac:(lra) S K KS) as (p & E & N).
  exists p. split; [exact E|]. replace 321 with (B2R (pp_cx ex_vk)) by (unfold ex_vk; cbn [pp_cx]; val).
  replace 240 with (B2R (pp_cy ex_vk)) by (unfold ex_vk; cbn [pp_cy]; val). exact N.
Qed.
End Ex.
