(** * PropFloatWorld.v - property theorems C67-C72: rounding errors between world, camera and pixels *)

From Coq Require Import ZArith Reals List Bool Lra Lia.
From Flocq Require Import Core BinarySingleNaN.
From Verif Require Import Scalar Linalg Bundles Extrinsics Perspective Orthographic Camera TestUtils Spec SpecFloatErr TestUtilsProofs FloatErrProofs2 FloatWorldProofs.
Import ListNotations.
Local Open Scope R_scope.

(** Any IEEE format with at least 11 bits of precision (half precision and up).
    [bpow radix2 (- prec)] is the unit roundoff, [M] bounds the coordinates of
    the center and of the points, [P] the pixels and the parameters.  The stored
    quaternion [qh] is within 8 [w] of a unit quaternion [q]; [w] is the unit roundoff
    or, for a less accurate quaternion, more. *)
Section IEEE.
Variables (prec emax : Z) (Hp : Prec_gt_0 prec) (He : Prec_lt_emax prec emax).
Variables fsin fcos : binary_float prec emax -> binary_float prec emax.
Local Notation F := (binary_float prec emax).
Local Hint Extern 0 (Ops (binary_float prec emax)) =>
  exact (B_ops prec emax Hp He fsin fcos) : typeclass_instances.
Local Notation u := (bpow radix2 (- prec)).
Local Notation big := (bpow radix2 emax).

(** C67: every stored quaternion whose squared norm is 1 up to 8 units of roundoff is such a [qh]. *)
Theorem C67_stored_quaternions (qh : Quat F) : (11 <= prec)%Z ->
  is_finite (qi qh) = true -> is_finite (qj qh) = true -> is_finite (qk qh) = true -> is_finite (qw qh) = true ->
  Rabs (qnorm2 (mkQuat (B2R (qi qh)) (B2R (qj qh)) (B2R (qk qh)) (B2R (qw qh))) - 1) <= 8 * u ->
  exists q, unit_quat q /\ quat_near (8 * u) qh q.
Proof. exact (near_unit_quat8 prec emax qh). Qed.

(** C67: world to camera. *)
Theorem C67_world_to_camera_error (w : R) (qh : Quat F) q c M pts : u <= w <= / 2048 -> (17 <= emax)%Z ->
  unit_quat q -> quat_near (8 * w) qh q -> vec_sized M c -> 1 <= M -> 512 * M < big -> Forall (vec_sized M) pts ->
  exists out, world_to_camera (from_rotation_and_camcenter qh c) (mkPoints pts) = Some (mkPoints out) /\
    Forall2 (fun x y => vec_near (610 * w * M) y (to_camera q (vreal c) (vreal x))) pts out.
Proof. intros (W1 & W2) E17 U N C M1 MB. exact (C67_lemma prec emax Hp He fsin fcos w W1 W2 E17 qh q c M U N C M1 MB pts). Qed.

(** C68: camera to world. *)
Theorem C68_camera_to_world_error (w : R) (qh : Quat F) q c M pts : u <= w <= / 2048 -> (17 <= emax)%Z ->
  unit_quat q -> quat_near (8 * w) qh q -> vec_sized M c -> 1 <= M -> 512 * M < big -> Forall (vec_sized M) pts ->
  exists out, camera_to_world (from_rotation_and_camcenter qh c) (mkPoints pts) = Some (mkPoints out) /\
    Forall2 (fun y x => vec_near (1500 * w * M) x (to_world q (vreal c) (vreal y))) pts out.
Proof. intros (W1 & W2) E17 U N C M1 MB. exact (C68_lemma prec emax Hp He fsin fcos w W1 W2 E17 qh q c M U N C M1 MB pts). Qed.

(** C69: there and back. *)
Theorem C69_world_camera_roundtrip_error (w : R) (qh : Quat F) q c M pts : u <= w <= / 2048 -> (17 <= emax)%Z ->
  unit_quat q -> quat_near (8 * w) qh q -> vec_sized M c -> 1 <= M -> 512 * M < big -> Forall (vec_sized M) pts ->
  (exists mid out, world_to_camera (from_rotation_and_camcenter qh c) (mkPoints pts) = Some mid /\
     camera_to_world (from_rotation_and_camcenter qh c) mid = Some (mkPoints out) /\
     Forall2 (fun x x' => vec_near (4000 * w * M) x' (vreal x)) pts out) /\
  (exists mid out, camera_to_world (from_rotation_and_camcenter qh c) (mkPoints pts) = Some mid /\
     world_to_camera (from_rotation_and_camcenter qh c) mid = Some (mkPoints out) /\
     Forall2 (fun y y' => vec_near (4500 * w * M) y' (vreal y)) pts out).
Proof. intros (W1 & W2) E17 U N C M1 MB. exact (C69_lemma prec emax Hp He fsin fcos w W1 W2 E17 qh q c M U N C M1 MB pts). Qed.

(** C70: world to pixel.  A perspective camera sees the points at depth [d] or more. *)
Theorem C70_world_to_pixel_error (w : R) (qh : Quat F) q c M P pts : u <= w <= / 2048 -> (17 <= emax)%Z ->
  unit_quat q -> quat_near (8 * w) qh q -> vec_sized M c -> 1 <= M -> 512 * M < big ->
  1 <= P -> 512 * P * M < big -> Forall (vec_sized M) pts ->
  (forall k : PerspectiveParams F, persp_sized P k -> forall d, 0 < d -> 40000 * w * M <= d ->
     Forall (fun x => d <= vz (to_camera q (vreal c) (vreal x)) /\
                      pix_within P (pinhole k (to_camera q (vreal c) (vreal x)))) pts ->
     exists out, world_to_pixel (camera_new (perspective_from k) (from_rotation_and_camcenter qh c)) (mkPoints pts) = Some (mkPixels out) /\
       Forall2 (fun x p => pix_near (2600 * w * P * (M / d)) p (pinhole k (to_camera q (vreal c) (vreal x)))) pts out) /\
  (forall k : OrthographicParams F, ortho_sized P k ->
     exists out, world_to_pixel (camera_new (orthographic_from k) (from_rotation_and_camcenter qh c)) (mkPoints pts) = Some (mkPixels out) /\
       Forall2 (fun x p => pix_near (800 * w * P * M) p (parallel_pixel k (to_camera q (vreal c) (vreal x)))) pts out).
Proof. intros (W1 & W2) E17 U N C M1 MB. exact (C70_lemma prec emax Hp He fsin fcos w W1 W2 E17 qh q c M U N C M1 MB P pts). Qed.

(** C71: pixel to world ray to point to pixel.  The unit depth images of the pixels lie within [M]. *)
Theorem C71_world_pixel_roundtrip_error (w : R) (qh : Quat F) q c M P pixels : u <= w <= / 2048 -> (17 <= emax)%Z ->
  unit_quat q -> quat_near (8 * w) qh q -> vec_sized M c -> 1 <= M -> 512 * M < big ->
  1 <= P -> 512 * P * M < big -> Forall (fun p => sized 0 P (px p) /\ sized 0 P (py p)) (pix_data pixels) ->
  (forall k : PerspectiveParams F, persp_sized P k -> sized 0 (Rabs (B2R (pp_fy k))) (pp_skew k) ->
     5 * P <= M * Rabs (B2R (pp_fx k)) -> 5 * P <= M * Rabs (B2R (pp_fy k)) -> 330000 * w * M <= 1 ->
     exists rays pts back,
       pixel_to_world (camera_new (perspective_from k) (from_rotation_and_camcenter qh c)) pixels = Some rays /\
       point_on_ray rays = Some pts /\
       world_to_pixel (camera_new (perspective_from k) (from_rotation_and_camcenter qh c)) pts = Some back /\
       Forall2 (pixel_within (21000 * w * P * M)) (pix_data pixels) (pix_data back)) /\
  (forall k : OrthographicParams F, ortho_sized P k ->
     5 * P <= M * Rabs (B2R (op_sx k)) -> 5 * P <= M * Rabs (B2R (op_sy k)) ->
     exists rays pts back,
       pixel_to_world (camera_new (orthographic_from k) (from_rotation_and_camcenter qh c)) pixels = Some rays /\
       point_on_ray rays = Some pts /\
       world_to_pixel (camera_new (orthographic_from k) (from_rotation_and_camcenter qh c)) pts = Some back /\
       Forall2 (pixel_within (7000 * w * P * M)) (pix_data pixels) (pix_data back)).
Proof. intros (W1 & W2) E17 U N C M1 MB. exact (C71_lemma prec emax Hp He fsin fcos w W1 W2 E17 qh q c M U N C M1 MB P pixels). Qed.

(** C72: the test helper of whole cameras succeeds with a tolerance of at least these errors. *)
Theorem C72_roundtrip_camera_ieee (w : R) (qh : Quat F) q c M P umax (as_scalar : nat -> F) width height step border (eps : F) : u <= w <= / 2048 -> (17 <= emax)%Z ->
  unit_quat q -> quat_near (8 * w) qh q -> vec_sized M c -> 1 <= M -> 512 * M < big ->
  1 <= P -> 512 * P * M < big ->
  (0 < step)%nat -> (width <= umax)%nat -> (height <= umax)%nat ->
  (forall n, (n < width \/ n < height)%nat -> sized 0 P (as_scalar n)) ->
  generate_uv_raw umax as_scalar width height step border <> None ->
  is_finite eps = true ->
  (forall k : PerspectiveParams F, persp_sized P k -> sized 0 (Rabs (B2R (pp_fy k))) (pp_skew k) ->
     5 * P <= M * Rabs (B2R (pp_fx k)) -> 5 * P <= M * Rabs (B2R (pp_fy k)) -> 330000 * w * M <= 1 ->
     21000 * w * P * M <= B2R eps ->
     roundtrip_camera umax as_scalar (camera_new (perspective_from k) (from_rotation_and_camcenter qh c)) width height step border eps = Some tt) /\
  (forall k : OrthographicParams F, ortho_sized P k ->
     5 * P <= M * Rabs (B2R (op_sx k)) -> 5 * P <= M * Rabs (B2R (op_sy k)) ->
     7000 * w * P * M <= B2R eps ->
     roundtrip_camera umax as_scalar (camera_new (orthographic_from k) (from_rotation_and_camcenter qh c)) width height step border eps = Some tt).
Proof. intros (W1 & W2) E17 U N C M1 MB. exact (C72_lemma prec emax Hp He fsin fcos w W1 W2 E17 qh q c M U N C M1 MB P umax as_scalar width height step border eps). Qed.
End IEEE.
Print Assumptions C67_stored_quaternions.
Print Assumptions C67_world_to_camera_error.
Print Assumptions C68_camera_to_world_error.
Print Assumptions C69_world_camera_roundtrip_error.
Print Assumptions C70_world_to_pixel_error.
Print Assumptions C71_world_pixel_roundtrip_error.
Print Assumptions C72_roundtrip_camera_ieee.

Section F64.
Variables fsin fcos : f64 -> f64.
Local Hint Extern 0 (Ops f64) => exact (f64_ops fsin fcos) : typeclass_instances.
Local Notation u := (bpow radix2 (- (53))).

(** C67, C68, C69: double precision, coordinates up to 1000. *)
Theorem C67_rigid_f64 (qh : Quat f64) q c pts : unit_quat q -> quat_near (8 * u) qh q -> vec_sized 1000 c -> Forall (vec_sized 1000) pts ->
  (exists out, world_to_camera (from_rotation_and_camcenter qh c) (mkPoints pts) = Some (mkPoints out) /\
     Forall2 (fun x y => vec_near (1 / 10000000000) y (to_camera q (vreal c) (vreal x))) pts out) /\
  (exists out, camera_to_world (from_rotation_and_camcenter qh c) (mkPoints pts) = Some (mkPoints out) /\
     Forall2 (fun y x => vec_near (2 / 10000000000) x (to_world q (vreal c) (vreal y))) pts out) /\
  (exists mid out, world_to_camera (from_rotation_and_camcenter qh c) (mkPoints pts) = Some mid /\
     camera_to_world (from_rotation_and_camcenter qh c) mid = Some (mkPoints out) /\
     Forall2 (fun x x' => vec_near (5 / 10000000000) x' (vreal x)) pts out).
Proof. exact (C67b_lemma fsin fcos qh q c pts). Qed.

(** C70: double precision, coordinates up to 1000, pixels and parameters up to 10000, depth 1 or more. *)
Theorem C70_world_to_pixel_f64 (qh : Quat f64) q c (k : PerspectiveParams f64) pts : unit_quat q -> quat_near (8 * u) qh q ->
  vec_sized 1000 c -> Forall (vec_sized 1000) pts -> persp_sized 10000 k ->
  Forall (fun x => 1 <= vz (to_camera q (vreal c) (vreal x)) /\ pix_within 10000 (pinhole k (to_camera q (vreal c) (vreal x)))) pts ->
  exists out, world_to_pixel (camera_new (perspective_from k) (from_rotation_and_camcenter qh c)) (mkPoints pts) = Some (mkPixels out) /\
    Forall2 (fun x p => pix_near (3 / 1000000) p (pinhole k (to_camera q (vreal c) (vreal x)))) pts out.
Proof. exact (C70b_lemma fsin fcos qh q c k pts). Qed.

(** C71: double precision, center within 100, focal lengths from 500 to 10000. *)
Theorem C71_world_pixel_roundtrip_f64 (qh : Quat f64) q c (k : PerspectiveParams f64) pixels : unit_quat q -> quat_near (8 * u) qh q ->
  vec_sized 100 c -> sized 500 10000 (pp_fx k) -> sized 500 10000 (pp_fy k) -> sized 0 500 (pp_skew k) ->
  sized 0 10000 (pp_cx k) -> sized 0 10000 (pp_cy k) ->
  Forall (fun p => sized 0 10000 (px p) /\ sized 0 10000 (py p)) (pix_data pixels) ->
  exists rays pts back,
    pixel_to_world (camera_new (perspective_from k) (from_rotation_and_camcenter qh c)) pixels = Some rays /\
    point_on_ray rays = Some pts /\
    world_to_pixel (camera_new (perspective_from k) (from_rotation_and_camcenter qh c)) pts = Some back /\
    Forall2 (pixel_within (3 / 1000000)) (pix_data pixels) (pix_data back).
Proof. exact (C71b_lemma fsin fcos qh q c k pixels). Qed.

(** A camera turned by the stored double precision quaternion (0.6, 0, 0, 0.8),
    which is off from a unit quaternion, at (1, 2, 3). *)
Local Notation lit m e := (@o_lit f64 (f64_ops fsin fcos) m%Z e%Z).
Local Ltac val := cbv -[IZR Rdiv Rinv Rmult Rplus Ropp]; lra.
Local Ltac size v := split; [reflexivity|];
  match goal with |- _ <= Rabs ?x <= _ => replace x with v; [rewrite Rabs_pos_eq; lra|] end; val.
Definition ex_qh : Quat f64 := mkQuat (lit 5404319552844595 (-53)) (lit 0 0) (lit 0 0) (lit 7205759403792794 (-53)).
Definition ex_qr : Quat R := mkQuat (3/5) 0 0 (4/5).
Definition ex_ch : V3 f64 := mkV3 (lit 1 0) (lit 2 0) (lit 3 0).
(** the point is in front of the camera *)
Definition ex_xh : V3 f64 := mkV3 (lit 3 0) (lit 20 0) (lit 1 0).
Definition ex_kh : PerspectiveParams f64 := mkPP (lit 1000 0) (lit 1002 0) (lit 1 (-2)) (lit 321 0) (lit 240 0).
Definition ex_ph : Pixels f64 := mkPixels [mkV2 (lit 640 0) (lit 480 0); mkV2 (lit 0 0) (lit 7 0)].

Example ex_qr_unit : unit_quat ex_qr. Proof. unfold unit_quat, qnorm2, ex_qr; cbn; lra. Qed.
Example ex_qh_near : quat_near (8 * u) ex_qh ex_qr.
Proof.
  change u with (/ 9007199254740992). unfold quat_near, near, ex_qh, ex_qr. cbn [qi qj qk qw].
  assert (A : B2R (lit 5404319552844595 (-53)) = 5404319552844595 / 9007199254740992) by val.
  assert (B : B2R (lit 7205759403792794 (-53)) = 7205759403792794 / 9007199254740992) by val.
  assert (Z : B2R (lit 0 0) = 0) by val.
  rewrite A, B, Z. repeat split; try reflexivity; apply Rabs_le; lra.
Qed.
Example ex_ch_sized : vec_sized 100 ex_ch. Proof. split; [size 1|split; [size 2|size 3]]. Qed.
Example ex_xh_sized : vec_sized 1000 ex_xh. Proof. split; [size 3|split; [size 20|size 1]]. Qed.
Example ex_ch_sized' : vec_sized 1000 ex_ch. Proof. split; [size 1|split; [size 2|size 3]]. Qed.
Example ex_kh_sized : persp_sized 10000 ex_kh.
Proof. split; [size 1000|split; [size 1002|split; [size (1/4)|split; [size 321|size 240]]]]. Qed.
Example ex_cam : to_camera ex_qr (vreal ex_ch) (vreal ex_xh) = mkV3 2 (174/25) (418/25).
Proof.
  assert (A : vreal ex_ch = mkV3 1 2 3) by (unfold vreal, ex_ch; f_equal; val).
  assert (B : vreal ex_xh = mkV3 3 20 1) by (unfold vreal, ex_xh; f_equal; val).
  rewrite A, B. unfold to_camera, mv, rotm, vsub, ex_qr. cbn. f_equal; lra.
Qed.
Example ex_pix : pinhole ex_kh (mkV3 2 (174/25) (418/25)) = mkV2 ((2000 + 174/100) / (418/25) + 321) (1002 * (174/25) / (418/25) + 240).
Proof.
  assert (A : B2R (lit 1000 0) = 1000) by val. assert (B : B2R (lit 1002 0) = 1002) by val.
  assert (C : B2R (lit 1 (-2)) = 1/4) by val. assert (D : B2R (lit 321 0) = 321) by val.
  assert (E : B2R (lit 240 0) = 240) by val.
  unfold pinhole, ex_kh. cbn [pp_fx pp_fy pp_skew pp_cx pp_cy vx vy vz]. rewrite A, B, C, D, E. f_equal; lra.
Qed.
Example C67_case : exists y, world_to_camera (from_rotation_and_camcenter ex_qh ex_ch) (mkPoints [ex_xh]) = Some (mkPoints [y]) /\
  vec_near (1 / 10000000000) y (mkV3 2 (174/25) (418/25)).
Proof.
  destruct (C67_rigid_f64 ex_qh ex_qr ex_ch [ex_xh] ex_qr_unit ex_qh_near ex_ch_sized' (Forall_cons _ ex_xh_sized (Forall_nil _)))
    as ((out & E & W) & _).
  inversion W as [|? y ? ? N W']; subst. inversion W'; subst. exists y. split; [exact E|]. now rewrite <- ex_cam.
Qed.
Example C68_case : exists x, camera_to_world (from_rotation_and_camcenter ex_qh ex_ch) (mkPoints [ex_xh]) = Some (mkPoints [x]) /\
  vec_near (2 / 10000000000) x (to_world ex_qr (vreal ex_ch) (vreal ex_xh)).
Proof.
  destruct (C67_rigid_f64 ex_qh ex_qr ex_ch [ex_xh] ex_qr_unit ex_qh_near ex_ch_sized' (Forall_cons _ ex_xh_sized (Forall_nil _)))
    as (_ & (out & E & W) & _).
  inversion W as [|? y ? ? N W']; subst. inversion W'; subst. exists y. split; [exact E|exact N].
Qed.
Example C69_case : exists mid x, world_to_camera (from_rotation_and_camcenter ex_qh ex_ch) (mkPoints [ex_xh]) = Some mid /\
  camera_to_world (from_rotation_and_camcenter ex_qh ex_ch) mid = Some (mkPoints [x]) /\
  vec_near (5 / 10000000000) x (mkV3 3 20 1).
Proof.
  destruct (C67_rigid_f64 ex_qh ex_qr ex_ch [ex_xh] ex_qr_unit ex_qh_near ex_ch_sized' (Forall_cons _ ex_xh_sized (Forall_nil _)))
    as (_ & _ & (mid & out & E & E' & W)).
  inversion W as [|? y ? ? N W']; subst. inversion W'; subst. exists mid, y. split; [exact E|split; [exact E'|]].
  replace (mkV3 3 20 1) with (vreal ex_xh); [exact N|]. unfold vreal, ex_xh; f_equal; val.
Qed.
Example C70_case : exists p, world_to_pixel (camera_new (perspective_from ex_kh) (from_rotation_and_camcenter ex_qh ex_ch)) (mkPoints [ex_xh]) = Some (mkPixels [p]) /\
  pix_near (3 / 1000000) p (mkV2 ((2000 + 174/100) / (418/25) + 321) (1002 * (174/25) / (418/25) + 240)).
Proof.
  assert (H : 1 <= vz (to_camera ex_qr (vreal ex_ch) (vreal ex_xh)) /\ pix_within 10000 (pinhole ex_kh (to_camera ex_qr (vreal ex_ch) (vreal ex_xh)))).
  { rewrite ex_cam, ex_pix. split; [cbn; lra|]. split; cbn [px py]; rewrite Rabs_pos_eq; lra. }
  destruct (C70_world_to_pixel_f64 ex_qh ex_qr ex_ch ex_kh [ex_xh] ex_qr_unit ex_qh_near ex_ch_sized' (Forall_cons _ ex_xh_sized (Forall_nil _))
    ex_kh_sized (Forall_cons _ H (Forall_nil _))) as (out & E & W).
  inversion W as [|? p ? ? N W']; subst. inversion W'; subst. exists p. split; [exact E|]. now rewrite <- ex_pix, <- ex_cam.
Qed.
Example C71_case : exists rays pts back,
  pixel_to_world (camera_new (perspective_from ex_kh) (from_rotation_and_camcenter ex_qh ex_ch)) ex_ph = Some rays /\
  point_on_ray rays = Some pts /\
  world_to_pixel (camera_new (perspective_from ex_kh) (from_rotation_and_camcenter ex_qh ex_ch)) pts = Some back /\
  Forall2 (pixel_within (3 / 1000000)) (pix_data ex_ph) (pix_data back).
Proof.
  apply (C71_world_pixel_roundtrip_f64 ex_qh ex_qr ex_ch ex_kh ex_ph ex_qr_unit ex_qh_near ex_ch_sized).
  - size 1000. - size 1002. - size (1/4). - size 321. - size 240.
  - constructor; [split; [size 640|size 480]|]. constructor; [split; [size 0|size 7]|]. constructor.
Qed.
(** the helper with the tolerance 2^-18 (about 4e-6) *)
Definition ex_asf (n : nat) : f64 := if Nat.ltb n 4 then lit 7 0 else lit 640 0.
Example C72_case : roundtrip_camera 1000 ex_asf (camera_new (perspective_from ex_kh) (from_rotation_and_camcenter ex_qh ex_ch)) 640 480 5 5 (lit 1 (-18)) = Some tt.
Proof.
  assert (G : generate_uv_raw 1000 ex_asf 640 480 5 5 <> None).
  { intros H. apply (proj1 (C53_lemma 1000 ex_asf 640 480 5 5 ltac:(lia) ltac:(lia) ltac:(lia))) in H. lia. }
  pose proof u_f64 as U1.
  assert (B1 : 512 * 100 < bpow radix2 1024) by (apply big_f64; lra).
  assert (B2 : 512 * 10000 * 100 < bpow radix2 1024) by (apply big_f64; lra).
  apply (proj1 (C72_roundtrip_camera_ieee 53 1024 f64_prec f64_emax fsin fcos u ex_qh ex_qr ex_ch 100 10000 1000 ex_asf 640 480 5 5 (lit 1 (-18))
     ltac:(lra) ltac:(lia) ex_qr_unit ex_qh_near ex_ch_sized ltac:(lra) B1 ltac:(lra) B2 ltac:(lia) ltac:(lia) ltac:(lia)
     ltac:(intros n _; unfold ex_asf; destruct (Nat.ltb n 4); [size 7|size 640]) G eq_refl) ex_kh ex_kh_sized).
  - unfold ex_kh. cbn [pp_fy pp_skew]. replace (B2R (lit 1002 0)) with 1002 by val. rewrite Rabs_pos_eq by lra. size (1/4).
  - unfold ex_kh. cbn [pp_fx]. replace (B2R (lit 1000 0)) with 1000 by val. rewrite Rabs_pos_eq by lra. lra.
  - unfold ex_kh. cbn [pp_fy]. replace (B2R (lit 1002 0)) with 1002 by val. rewrite Rabs_pos_eq by lra. lra.
  - lra.
  - replace (B2R (lit 1 (-18))) with (/ 262144) by val. lra.
Qed.
End F64.
Print Assumptions C67_rigid_f64.
Print Assumptions C70_world_to_pixel_f64.
Print Assumptions C71_world_pixel_roundtrip_f64.
