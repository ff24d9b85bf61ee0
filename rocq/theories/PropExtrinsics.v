(** * PropExtrinsics.v - property theorems C03-C12, C58 *)

From Coq Require Import List Reals Lra ZArith.
From Flocq Require Import Core BinarySingleNaN.
From Verif Require Import Scalar Linalg Bundles Extrinsics Spec RealBase VecLemmas ExtrinsicsProofs CacheProofs FromViewProofs FloatExtProofs.
Import ListNotations.
Local Open Scope R_scope.

(** The pose used in the examples: a rotation by 2*acos(4/5) about z. *)
Definition ex_q : Quat R := mkQuat 0 0 (3/5) (4/5).
Definition ex_c : V3 R := mkV3 1 2 3.
Lemma ex_q_unit : unit_quat ex_q.
Proof. unfold ex_q; ru_spec; lra. Qed.

(** C03, first part: center and rotation are reported bit for bit, any scalar type. *)
Theorem C03_pose_reported {T} {O : Ops T} (q : Quat T) (c : V3 T) :
  camcenter (from_rotation_and_camcenter q c) = c /\
  iso_rot (pose (from_rotation_and_camcenter q c)) = q /\
  e_rquat (from_rotation_and_camcenter q c) = q.
Proof. exact (frc_accessors q c). Qed.
Print Assumptions C03_pose_reported.

(** C03: world_to_camera, rotation(), translation() and matrix() are those of x |-> Rot(q)(x - c). *)
Theorem C03_extrinsics_pose q c : unit_quat q ->
  (forall pts, world_to_camera (frc q c) (mkPoints pts)
               = Some (mkPoints (map (fun x => mv (rotm q) (vsub x c)) pts))) /\
  rotation (frc q c) = rotm q /\
  translation (frc q c) = vopp (mv (rotm q) c) /\
  left33 (matrix (frc q c)) = rotm q /\
  col4 (matrix (frc q c)) = vopp (mv (rotm q) c).
Proof. exact (C03_lemma q c). Qed.
Print Assumptions C03_extrinsics_pose.

Example C03_case : world_to_camera (from_rotation_and_camcenter ex_q ex_c) (mkPoints [mkV3 2 2 4])
  = Some (mkPoints [mkV3 (7/25) (24/25) 1]).
Proof.
  destruct (C03_extrinsics_pose ex_q ex_c ex_q_unit) as (H & _). rewrite H. cbn [map]. do 3 f_equal.
  unfold ex_q, ex_c; apply V3_eq; ru_spec; lra.
Qed.

(** C03: every cached value, among them the two which no method reads. *)
Theorem C03_cached_values q c : unit_quat q ->
  let f := e_cache (frc q c) in
  c_q f = rotm q /\ c_translation f = vopp (mv (rotm q) c) /\
  left33 (c_qt f) = rotm q /\ col4 (c_qt f) = vopp (mv (rotm q) c) /\
  mm (c_q_inv f) (rotm q) = mI /\ mm (rotm q) (c_q_inv f) = mI /\
  c_camcenter_z0 f = mkV3 (vx c) (vy c) 0 /\
  iso_rot (c_pose f) = q /\ iso_trans (c_pose f) = vopp (mv (rotm q) c) /\
  rotm (iso_rot (c_pose_inv f)) = mtr (rotm q) /\ iso_trans (c_pose_inv f) = c.
Proof. exact (C03b_lemma q c). Qed.
Print Assumptions C03_cached_values.

Example C03b_case : c_camcenter_z0 (e_cache (from_rotation_and_camcenter ex_q ex_c)) = mkV3 1 2 0.
Proof. apply (C03_cached_values ex_q ex_c ex_q_unit). Qed.

(** C04: rotation() is a proper rotation; distances and orientation are preserved. *)
Theorem C04_proper_rotation q c : unit_quat q ->
  is_rotation (rotation (frc q c)) /\
  (forall x y, exists x' y',
     world_to_camera (frc q c) (mkPoints [x; y]) = Some (mkPoints [x'; y']) /\
     vdist x' y' = vdist x y) /\
  (forall o a b d, exists o' a' b' d',
     world_to_camera (frc q c) (mkPoints [o; a; b; d]) = Some (mkPoints [o'; a'; b'; d']) /\
     triple (vsub a' o') (vsub b' o') (vsub d' o') = triple (vsub a o) (vsub b o) (vsub d o)).
Proof. exact (C04_lemma q c). Qed.
Print Assumptions C04_proper_rotation.

Example C04_case : is_rotation (rotation (from_rotation_and_camcenter ex_q ex_c)).
Proof. exact (proj1 (C04_proper_rotation ex_q ex_c ex_q_unit)). Qed.

(** C05: world_to_camera and camera_to_world are inverse to each other on batches. *)
Theorem C05_world_camera_inverse q c : unit_quat q ->
  (forall pts, exists cam, world_to_camera (frc q c) (mkPoints pts) = Some cam /\
                           camera_to_world (frc q c) cam = Some (mkPoints pts)) /\
  (forall pts, exists w, camera_to_world (frc q c) (mkPoints pts) = Some w /\
                         world_to_camera (frc q c) w = Some (mkPoints pts)).
Proof. exact (C05_lemma q c). Qed.
Print Assumptions C05_world_camera_inverse.

Example C05_case : exists cam,
  world_to_camera (from_rotation_and_camcenter ex_q ex_c) (mkPoints [mkV3 2 2 4; mkV3 0 7 1]) = Some cam /\
  camera_to_world (from_rotation_and_camcenter ex_q ex_c) cam = Some (mkPoints [mkV3 2 2 4; mkV3 0 7 1]).
Proof. exact (proj1 (C05_world_camera_inverse ex_q ex_c ex_q_unit) _). Qed.

(** C06: the center, and only the center, has camera coordinates 0. *)
Theorem C06_center_is_origin q c : unit_quat q ->
  world_to_camera (frc q c) (mkPoints [camcenter (frc q c)]) = Some (mkPoints [vO]) /\
  camera_to_world (frc q c) (mkPoints [vO]) = Some (mkPoints [camcenter (frc q c)]) /\
  (forall x, world_to_camera (frc q c) (mkPoints [x]) = Some (mkPoints [vO]) -> x = c).
Proof. exact (C06_lemma q c). Qed.
Print Assumptions C06_center_is_origin.

Example C06_case : world_to_camera (from_rotation_and_camcenter ex_q ex_c) (mkPoints [mkV3 1 2 3])
  = Some (mkPoints [mkV3 0 0 0]).
Proof. exact (proj1 (C06_center_is_origin ex_q ex_c ex_q_unit)). Qed.

(** C07: from_pose and pose are inverse to each other, cache included. *)
Theorem C07_from_pose_inverse :
  (forall q c, unit_quat q -> from_pose (pose (frc q c)) = frc q c) /\
  (forall p : Iso R, unit_quat (iso_rot p) -> pose (from_pose p) = p).
Proof. exact C07_lemma. Qed.
Print Assumptions C07_from_pose_inverse.

Example C07_case : from_pose (pose (from_rotation_and_camcenter ex_q ex_c)) = from_rotation_and_camcenter ex_q ex_c.
Proof. exact (proj1 C07_from_pose_inverse ex_q ex_c ex_q_unit). Qed.

(** C08: q and -q give the same conversions and reported matrices and directions. *)
Theorem C08_double_cover (q : Quat R) c :
  (forall p, world_to_camera (frc (qopp q) c) p = world_to_camera (frc q c) p) /\
  (forall p, camera_to_world (frc (qopp q) c) p = camera_to_world (frc q c) p) /\
  (forall b : RayBundle CameraFrame (SharedOriginRayBundle R) R,
     ray_camera_to_world (frc (qopp q) c) b = ray_camera_to_world (frc q c) b) /\
  (forall b : RayBundle CameraFrame (SharedDirectionRayBundle R) R,
     ray_camera_to_world (frc (qopp q) c) b = ray_camera_to_world (frc q c) b) /\
  matrix (frc (qopp q) c) = matrix (frc q c) /\
  rotation (frc (qopp q) c) = rotation (frc q c) /\
  translation (frc (qopp q) c) = translation (frc q c) /\
  forward (frc (qopp q) c) = forward (frc q c) /\
  up (frc (qopp q) c) = up (frc q c) /\
  right (frc (qopp q) c) = right (frc q c).
Proof. exact (C08_lemma q c). Qed.
Print Assumptions C08_double_cover.

Example C08_case : rotation (from_rotation_and_camcenter (mkQuat (-0) (-0) (-(3/5)) (-(4/5))) ex_c)
  = rotation (from_rotation_and_camcenter ex_q ex_c).
Proof. exact (proj1 (proj2 (proj2 (proj2 (proj2 (proj2 (C08_double_cover ex_q ex_c))))))). Qed.

(** C09: forward, right, up form an orthonormal frame with right x forward = up and are the images of +z, +x, -y. *)
Theorem C09_frame q c : unit_quat q ->
  let f := forward (frc q c) in let r := right (frc q c) in let u := up (frc q c) in
  vlen f = 1 /\ vlen r = 1 /\ vlen u = 1 /\
  vdot f r = 0 /\ vdot f u = 0 /\ vdot r u = 0 /\
  vcross r f = u /\
  (forall p, exists o z x y,
     camera_to_world (frc q c)
       (mkPoints [p; vadd p (mkV3 0 0 1); vadd p (mkV3 1 0 0); vadd p (mkV3 0 (-1) 0)])
     = Some (mkPoints [o; z; x; y]) /\
     vsub z o = f /\ vsub x o = r /\ vsub y o = u).
Proof. exact (C09_lemma q c). Qed.
Print Assumptions C09_frame.

Example C09_case : vcross (right (from_rotation_and_camcenter ex_q ex_c)) (forward (from_rotation_and_camcenter ex_q ex_c))
  = up (from_rotation_and_camcenter ex_q ex_c).
Proof. exact (proj1 (proj2 (proj2 (proj2 (proj2 (proj2 (proj2 (C09_frame ex_q ex_c ex_q_unit)))))))). Qed.

(** C10: from_view looks at its target, whatever the roll constant is; the last
    part says which constant the code uses. *)
Theorem C10_from_view_looks_at_target roll c l u : l <> c -> vcross u (vsub l c) <> vO ->
  camcenter (from_view_with_roll roll c l u) = c /\
  forward (from_view_with_roll roll c l u) = vunit (vsub l c) /\
  world_to_camera (from_view_with_roll roll c l u) (mkPoints [l])
  = Some (mkPoints [mkV3 0 0 (vlen (vsub l c))]) /\
  from_view c l u = from_view_with_roll o_pi64 c l u.
Proof. exact (C10_lemma roll c l u). Qed.
Print Assumptions C10_from_view_looks_at_target.

Example C10_case : world_to_camera (from_view (mkV3 1 0 0) (mkV3 4 4 0) (mkV3 0 0 1)) (mkPoints [mkV3 4 4 0])
  = Some (mkPoints [mkV3 0 0 5]).
Proof.
  assert (A : mkV3 4 4 0 <> mkV3 1 0 0) by (intros E; apply V3_inv in E; lra).
  assert (B : vcross (mkV3 0 0 1) (vsub (mkV3 4 4 0) (mkV3 1 0 0)) <> vO)
    by (unfold vcross, vsub, vO; simpl; intros E; apply V3_inv in E; lra).
  destruct (C10_from_view_looks_at_target o_pi64 _ _ _ A B) as (_ & _ & H & _).
  unfold from_view. rewrite H. do 4 f_equal. apply vlen_unique; [lra|ru_spec; lra].
Qed.

(** C11: the frame is upright for an exact half turn, and rolled by PI - PI_f64 (about
    1.2e-16) for the constant in the code. *)
Theorem C11_from_view_up (c l u : V3 R) : l <> c -> vcross u (vsub l c) <> vO ->
  let ideal_right := vunit (vcross (vsub l c) u) in
  let ideal_up := vunit (vsub u (vscl (vdot u (vunit (vsub l c))) (vunit (vsub l c)))) in
  (let e := from_view_with_roll PI c l u in
   right e = ideal_right /\ vdot (right e) u = 0 /\
   up e = ideal_up /\ 0 < vdot (up e) u /\ triple (up e) (vsub l c) u = 0) /\
  (let e := from_view c l u in
   let d := PI - o_pi64 in
   right e = vsub (vscl (cos d) ideal_right) (vscl (sin d) ideal_up) /\
   up e = vadd (vscl (cos d) ideal_up) (vscl (sin d) ideal_right) /\
   0 < d <= 13 / 100000000000000000 /\
   vdist (right e) ideal_right <= 13 / 100000000000000000 /\
   vdist (up e) ideal_up <= 13 / 100000000000000000).
Proof. exact (C11_lemma c l u). Qed.
Print Assumptions C11_from_view_up.

Example C11_case : right (from_view_with_roll PI (mkV3 1 0 0) (mkV3 3 0 0) (mkV3 0 0 1)) = mkV3 0 (-1) 0 /\
  up (from_view_with_roll PI (mkV3 1 0 0) (mkV3 3 0 0) (mkV3 0 0 1)) = mkV3 0 0 1.
Proof.
  assert (A : mkV3 3 0 0 <> mkV3 1 0 0) by (intros E; apply V3_inv in E; lra).
  assert (B : vcross (mkV3 0 0 1) (vsub (mkV3 3 0 0) (mkV3 1 0 0)) <> vO)
    by (unfold vcross, vsub, vO; simpl; intros E; apply V3_inv in E; lra).
  destruct (C11_from_view_up _ _ _ A B) as ((R & _ & U & _) & _). rewrite R, U. clear.
  split.
  - unfold vunit. replace (vlen _) with 2.
    + apply V3_eq; ru_spec; lra.
    + symmetry; apply vlen_unique; [lra|ru_spec; lra].
  - replace (vunit (vsub (mkV3 3 0 0) (mkV3 1 0 0))) with (mkV3 1 0 0).
    + unfold vunit. replace (vlen _) with 1.
      * apply V3_eq; ru_spec; lra.
      * symmetry; apply vlen_unique; [lra|ru_spec; lra].
    + unfold vunit. replace (vlen _) with 2.
      * apply V3_eq; ru_spec; lra.
      * symmetry; apply vlen_unique; [lra|ru_spec; lra].
Qed.

Section IEEE.
Variables (prec emax : Z) (Hp : Prec_gt_0 prec) (He : Prec_lt_emax prec emax).
Variables fsin fcos : binary_float prec emax -> binary_float prec emax.
Local Notation F := (binary_float prec emax).
Local Hint Extern 0 (Ops (binary_float prec emax)) =>
  exact (B_ops prec emax Hp He fsin fcos) : typeclass_instances.
Local Notation nan := (B754_nan : F).

(** C12: with lookat = camcenter, from_view returns normally and everything is NaN. *)
Theorem C12_degenerate_view_nan (c u : V3 F) :
  iso_rot (pose (from_view c c u)) = mkQuat nan nan nan nan /\
  (forall pts, world_to_camera (from_view c c u) (mkPoints pts)
               = Some (mkPoints (map (fun _ => mkV3 nan nan nan) pts))).
Proof. exact (C12_lemma prec emax Hp He fsin fcos c u). Qed.

(** C58: looking exactly along the coordinate axis which is also the up
    direction gives NaN everywhere. *)
Theorem C58_view_along_up_axis_nan (c l u : V3 F) :
  ((vx l = vx c /\ vx u = B754_zero false /\ vy l = vy c /\ vy u = B754_zero false) \/
   (vx l = vx c /\ vx u = B754_zero false /\ vz l = vz c /\ vz u = B754_zero false) \/
   (vy l = vy c /\ vy u = B754_zero false /\ vz l = vz c /\ vz u = B754_zero false)) ->
  iso_rot (pose (from_view c l u)) = mkQuat nan nan nan nan /\
  (forall pts, world_to_camera (from_view c l u) (mkPoints pts)
               = Some (mkPoints (map (fun _ => mkV3 nan nan nan) pts))).
Proof. exact (C58_lemma prec emax Hp He fsin fcos c l u). Qed.
End IEEE.
Print Assumptions C12_degenerate_view_nan.
Print Assumptions C58_view_along_up_axis_nan.

(** In f64, a camera at (1,1,1) looking at itself. *)
Example C12_case fsin fcos :
  iso_rot (pose (@from_view f64 (f64_ops fsin fcos) (mkV3 Bone Bone Bone) (mkV3 Bone Bone Bone)
                   (mkV3 (B754_zero false) (B754_zero false) Bone)))
  = mkQuat B754_nan B754_nan B754_nan B754_nan.
Proof. exact (proj1 (C12_degenerate_view_nan 53 1024 f64_prec f64_emax fsin fcos _ _)). Qed.
(** In f64, a camera one unit above the floor looking straight down with up = +z. *)
Example C58_case fsin fcos :
  iso_rot (pose (@from_view f64 (f64_ops fsin fcos) (mkV3 Bone Bone Bone)
                   (mkV3 Bone Bone (B754_zero false))
                   (mkV3 (B754_zero false) (B754_zero false) Bone)))
  = mkQuat B754_nan B754_nan B754_nan B754_nan.
Proof.
  apply (C58_view_along_up_axis_nan 53 1024 f64_prec f64_emax fsin fcos). left. repeat split.
Qed.
