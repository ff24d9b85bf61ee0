(** * CacheProofs.v - every field of the cache of the extrinsics *)

From Coq Require Import List Reals Lra.
From Verif Require Import Scalar Linalg Bundles Extrinsics Spec Rows RealBase VecLemmas ExtrinsicsProofs.
Local Open Scope R_scope.

Lemma C03b_lemma q c : unit_quat q ->
  let f := e_cache (frc q c) in
  c_q f = rotm q /\ c_translation f = vopp (mv (rotm q) c) /\
  left33 (c_qt f) = rotm q /\ col4 (c_qt f) = vopp (mv (rotm q) c) /\
  mm (c_q_inv f) (rotm q) = mI /\ mm (rotm q) (c_q_inv f) = mI /\
  c_camcenter_z0 f = mkV3 (vx c) (vy c) 0 /\
  iso_rot (c_pose f) = q /\ iso_trans (c_pose f) = vopp (mv (rotm q) c) /\
  rotm (iso_rot (c_pose_inv f)) = mtr (rotm q) /\ iso_trans (c_pose_inv f) = c.
Proof.
  intros U. destruct (C03_lemma q c U) as (_ & E1 & E2 & E3 & E4).
  pose proof (rotm_orthogonal q U) as (O1 & O2). pose proof (rotmat_R q U) as E. cbv zeta.
  split; [exact E1|]. split; [exact E2|]. split; [exact E3|]. split; [exact E4|].
  split; [|split; [|split; [reflexivity|split; [reflexivity|split; [exact E2|split]]]]].
  - change (mm (mtr (q_to_rotation_matrix q)) (rotm q) = mI). now rewrite E.
  - change (mm (rotm q) (mtr (q_to_rotation_matrix q)) = mI). now rewrite E.
  - destruct q; apply M33_eq; unfold frc; cbn [e_cache c_pose_inv iso_inverse iso_rot]; ru; unfold rotm, mtr; cbn; ring.
  - now apply pose_inv_trans.
Qed.
