(** * PropSerde.v - property theorems C49-C52 *)

From Coq Require Import List String Reals Lra ZArith Permutation.
From Verif Require Import Scalar Linalg Bundles Extrinsics Perspective Orthographic Camera Serde SpecSerde Spec RealBase SerdeProofs SerdeProofs2.
Import ListNotations.
Local Open Scope string_scope.

(** C49: every field of the extrinsics, the cache included, is recovered from any encoding (map entries in any order, or a sequence). *)
Theorem C49_extrinsics_roundtrip {T} {O : Ops T} (q : Quat T) (c : V3 T) (v : sval T) :
  reencoding (ser_extrinsics (from_rotation_and_camcenter q c)) v ->
  de_extrinsics v = DOk (from_rotation_and_camcenter q c).
Proof. exact (C49a_lemma q c v). Qed.
Print Assumptions C49_extrinsics_roundtrip.

(** the entries swapped, or a plain sequence *)
Example C49_extrinsics_case {T} {O : Ops T} (i j k w x y z : T) :
  let e := from_rotation_and_camcenter (mkQuat i j k w) (mkV3 x y z) in
  de_extrinsics (SMap [("camcenter", SSeq [SNum x; SNum y; SNum z]); ("rquat", SSeq [SNum i; SNum j; SNum k; SNum w])]) = DOk e /\
  de_extrinsics (SSeq [SSeq [SNum i; SNum j; SNum k; SNum w]; SSeq [SNum x; SNum y; SNum z]]) = DOk e.
Proof.
  split; apply C49_extrinsics_roundtrip.
  - eapply re_map; [|apply perm_swap]. repeat constructor.
  - apply re_tuple. repeat constructor.
Qed.

(** C49: the same for the other constructors of extrinsics. *)
Theorem C49_pose_and_view_roundtrip {T} {O : Ops T} (pose : Iso T) (cc lookat up : V3 T) (v : sval T) :
  (reencoding (ser_extrinsics (from_pose pose)) v -> de_extrinsics v = DOk (from_pose pose)) /\
  (reencoding (ser_extrinsics (from_view cc lookat up)) v -> de_extrinsics v = DOk (from_view cc lookat up)).
Proof. exact (C49b_lemma pose cc lookat up v). Qed.
Print Assumptions C49_pose_and_view_roundtrip.

Example C49_view_case : exists e, de_extrinsics (O := R_ops) (ser_extrinsics (from_view (mkV3 1 2 3)%R (mkV3 0 0 0)%R (mkV3 0 0 1)%R)) = DOk e /\
  camcenter e = mkV3 1%R 2%R 3%R.
Proof.
  exists (from_view (mkV3 1 2 3)%R (mkV3 0 0 0)%R (mkV3 0 0 1)%R). split; [|reflexivity].
  apply (C49_pose_and_view_roundtrip (mkIso (mkQuat 0 0 0 1)%R (mkV3 0 0 0)%R)).
  eapply re_map; [|apply Permutation_refl]. repeat constructor.
Qed.

(** C49: perspective intrinsics, from parameters or from a matrix. *)
Theorem C49_perspective_roundtrip {T} {O : Ops T} (p : PerspectiveParams T) (m : M34 T) (v : sval T) :
  (reencoding (ser_persp (perspective_from p)) v -> de_persp v = DOk (perspective_from p)) /\
  (forall k, from_normalized_3x4_matrix m = Ok k -> reencoding (ser_persp k) v -> de_persp v = DOk k).
Proof. exact (C49c_lemma p m v). Qed.
Print Assumptions C49_perspective_roundtrip.

Example C49_perspective_case {T} {O : Ops T} (fx fy skew cx cy : T) :
  de_persp (SSeq [SMap [("cy", SNum cy); ("fx", SNum fx); ("fy", SNum fy); ("skew", SNum skew); ("cx", SNum cx)]])
  = DOk (perspective_from (mkPP fx fy skew cx cy)).
Proof.
  apply (proj1 (C49_perspective_roundtrip (mkPP fx fy skew cx cy) (mkM34 fx fx fx fx fx fx fx fx fx fx fx fx) _)).
  apply re_tuple. constructor; [|constructor].
  eapply re_map; [|apply (Permutation_app_comm [_; _; _; _] [_])]. repeat constructor.
Qed.

(** C49: orthographic intrinsics. *)
Theorem C49_orthographic_roundtrip {T} {O : Ops T} (p : OrthographicParams T) (v : sval T) :
  reencoding (ser_ortho (orthographic_from p)) v -> de_ortho v = DOk (orthographic_from p).
Proof. exact (C49d_lemma p v). Qed.
Print Assumptions C49_orthographic_roundtrip.

Example C49_orthographic_case {T} {O : Ops T} (sx sy cx cy : T) :
  de_ortho (SMap [("params", SSeq [SNum sx; SNum sy; SNum cx; SNum cy])]) = DOk (orthographic_from (mkOP sx sy cx cy)).
Proof.
  apply C49_orthographic_roundtrip. eapply re_map; [|apply Permutation_refl].
  constructor; [|constructor]. split; [reflexivity|]. apply re_tuple. repeat constructor.
Qed.

(** C49: whole cameras of both kinds. *)
Theorem C49_camera_roundtrip {T} {O : Ops T} (q : Quat T) (c : V3 T) (p : PerspectiveParams T) (o : OrthographicParams T) (v : sval T) :
  let e := from_rotation_and_camcenter q c in
  (reencoding (ser_camera ser_persp (mkCamera (perspective_from p) e)) v ->
   de_camera de_persp v = DOk (mkCamera (perspective_from p) e)) /\
  (reencoding (ser_camera ser_ortho (mkCamera (orthographic_from o) e)) v ->
   de_camera de_ortho v = DOk (mkCamera (orthographic_from o) e)).
Proof. exact (C49e_lemma q c p o v). Qed.
Print Assumptions C49_camera_roundtrip.

Example C49_camera_case {T} {O : Ops T} (sx sy cx cy : T) (q : Quat T) (c : V3 T) :
  de_camera de_ortho (SMap [("extrinsics", SMap [("rquat", ser_quat q); ("camcenter", ser_v3 c)]);
    ("intrinsics", SMap [("params", SSeq [SNum sx; SNum sy; SNum cx; SNum cy])])])
  = DOk (mkCamera (orthographic_from (mkOP sx sy cx cy)) (from_rotation_and_camcenter q c)).
Proof.
  apply (C49_camera_roundtrip q c (mkPP sx sx sx sx sx)). eapply re_map; [|apply perm_swap].
  constructor; [|constructor; [|constructor]]; (split; [reflexivity|]).
  - eapply re_map; [|apply Permutation_refl].
    constructor; [|constructor]. split; [reflexivity|]. apply re_tuple. repeat constructor.
  - eapply re_map; [|apply Permutation_refl]. constructor; [|constructor; [|constructor]]; (split; [reflexivity|]);
      apply re_seq; repeat constructor.
Qed.

(** C49: cameras made by [from_perspective_matrix]. *)
Theorem C49_camera_from_matrix_roundtrip {T} {O : Ops T} (pmat : M34 T) : exists cam, from_perspective_matrix pmat = Some (Ok cam) /\
  forall v, reencoding (ser_camera ser_persp cam) v -> de_camera de_persp v = DOk cam.
Proof. exact (C49g_lemma pmat). Qed.
Print Assumptions C49_camera_from_matrix_roundtrip.

(** C50: a map is accepted iff it has exactly the two fields, once each, in any order, well typed. *)
Theorem C50_extrinsics_map {T} {O : Ops T} (es : list (string * sval T)) (e : ExtrinsicParameters T) :
  de_extrinsics (SMap es) = DOk e <->
  exists vq vc q c, Permutation es [("rquat", vq); ("camcenter", vc)] /\
    de_quat vq = DOk q /\ de_v3 vc = DOk c /\ e = from_rotation_and_camcenter q c.
Proof. exact (C50a_lemma es e). Qed.
Print Assumptions C50_extrinsics_map.

(** neither a third field nor a repeated one is accepted *)
Example C50_map_case {T} {O : Ops T} (e : ExtrinsicParameters T) (q : Quat T) (c : V3 T) (v : sval T) :
  de_extrinsics (SMap [("rquat", ser_quat q); ("camcenter", ser_v3 c); ("extra", v)]) <> DOk e /\
  de_extrinsics (SMap [("rquat", ser_quat q); ("camcenter", ser_v3 c)]) = DOk (from_rotation_and_camcenter q c).
Proof.
  split.
  - intros H. apply C50_extrinsics_map in H. destruct H as (vq & vc & _ & _ & P & _).
    apply Permutation_length in P. discriminate.
  - apply C50_extrinsics_map. exists (ser_quat q), (ser_v3 c), q, c.
    repeat split; [apply Permutation_refl|destruct q; reflexivity|destruct c; reflexivity].
Qed.

(** C50: a sequence is accepted iff it has exactly the two elements, well typed. *)
Theorem C50_extrinsics_seq {T} {O : Ops T} (l : list (sval T)) (e : ExtrinsicParameters T) :
  de_extrinsics (SSeq l) = DOk e <->
  exists vq vc q c, l = [vq; vc] /\
    de_quat vq = DOk q /\ de_v3 vc = DOk c /\ e = from_rotation_and_camcenter q c.
Proof. exact (C50b_lemma l e). Qed.
Print Assumptions C50_extrinsics_seq.

Example C50_seq_case {T} {O : Ops T} (e : ExtrinsicParameters T) (q : Quat T) : de_extrinsics (SSeq [ser_quat q]) <> DOk e.
Proof. intros H. apply C50_extrinsics_seq in H. destruct H as (vq & vc & _ & _ & E & _). discriminate. Qed.

(** C50: perspective intrinsics, map form. *)
Theorem C50_perspective_map {T} {O : Ops T} (es : list (string * sval T)) (k : IntrinsicParametersPerspective T) :
  de_persp (SMap es) = DOk k <->
  exists v p, es = [("params", v)] /\ de_persp_params v = DOk p /\ k = perspective_from p.
Proof. exact (C50c_lemma es k). Qed.
Print Assumptions C50_perspective_map.

Example C50_perspective_map_case {T} {O : Ops T} (p : PerspectiveParams T) :
  de_persp (SMap [("params", ser_persp_params p)]) = DOk (perspective_from p).
Proof. apply C50_perspective_map. exists (ser_persp_params p), p. destruct p. repeat split. Qed.

(** C50: perspective intrinsics, sequence form. *)
Theorem C50_perspective_seq {T} {O : Ops T} (l : list (sval T)) (k : IntrinsicParametersPerspective T) :
  de_persp (SSeq l) = DOk k <->
  exists v p, l = [v] /\ de_persp_params v = DOk p /\ k = perspective_from p.
Proof. exact (C50d_lemma l k). Qed.
Print Assumptions C50_perspective_seq.

Example C50_perspective_seq_case {T} {O : Ops T} (p : PerspectiveParams T) k :
  de_persp (SSeq [ser_persp_params p; SUnit]) <> DOk k.
Proof. intros H. apply C50_perspective_seq in H. destruct H as (v & p' & E & _). discriminate. Qed.

(** C50: what well typed means: structures are maps or sequences, numbers are numbers (or integers), vectors and quaternions have exactly 3 and 4 numbers. *)
Theorem C50_well_typed {T} {O : Ops T} (v : sval T) :
  (forall e, de_extrinsics v = DOk e -> (exists l, v = SSeq l) \/ (exists es, v = SMap es)) /\
  (forall k, de_persp v = DOk k -> (exists l, v = SSeq l) \/ (exists es, v = SMap es)) /\
  (forall t, de_num v = DOk t <-> v = SNum t \/ exists n, v = SInt n /\ t = o_lit (Z.of_nat n) 0) /\
  (forall p, de_v3 v = DOk p <-> exists a b c, v = SSeq [a; b; c] /\
     de_num a = DOk (vx p) /\ de_num b = DOk (vy p) /\ de_num c = DOk (vz p)) /\
  (forall q, de_quat v = DOk q <-> exists i j k w, v = SSeq [i; j; k; w] /\
     de_num i = DOk (qi q) /\ de_num j = DOk (qj q) /\ de_num k = DOk (qk q) /\ de_num w = DOk (qw q)).
Proof. exact (C50e_lemma v). Qed.
Print Assumptions C50_well_typed.

Example C50_well_typed_case {T} {O : Ops T} (a b c d : T) (p : V3 T) :
  de_v3 (SSeq [SNum a; SNum b; SNum c]) = DOk (mkV3 a b c) /\ de_v3 (SSeq [SNum a; SNum b; SNum c; SNum d]) <> DOk p /\
  de_v3 (SSeq [SNum a; SInt 2; SUnit]) <> DOk p.
Proof.
  split; [|split].
  - apply C50_well_typed. exists (SNum a), (SNum b), (SNum c). repeat split.
  - intros H. apply C50_well_typed in H. destruct H as (? & ? & ? & E & _). discriminate.
  - intros H. apply C50_well_typed in H. destruct H as (? & ? & ? & E & _ & _ & H). injection E as <- <- <-. discriminate.
Qed.

(** C50: the derived parameter struct: each name exactly once, other names ignored. *)
Theorem C50_parameters_map {T} {O : Ops T} (es : list (string * sval T)) (p : PerspectiveParams T) :
  de_persp_params (SMap es) = DOk p <->
  exists v1 v2 v3 v4 v5,
    values_of "fx" es = [v1] /\ values_of "fy" es = [v2] /\ values_of "skew" es = [v3] /\
    values_of "cx" es = [v4] /\ values_of "cy" es = [v5] /\
    de_num v1 = DOk (pp_fx p) /\ de_num v2 = DOk (pp_fy p) /\ de_num v3 = DOk (pp_skew p) /\
    de_num v4 = DOk (pp_cx p) /\ de_num v5 = DOk (pp_cy p).
Proof. exact (C50f_lemma es p). Qed.
Print Assumptions C50_parameters_map.

Example C50_parameters_case {T} {O : Ops T} (a b c d e : T) (v : sval T) :
  de_persp_params (SMap [("cy", SNum e); ("note", v); ("fx", SNum a); ("fy", SNum b); ("skew", SNum c); ("cx", SNum d)])
  = DOk (mkPP a b c d e).
Proof. apply C50_parameters_map. exists (SNum a), (SNum b), (SNum c), (SNum d), (SNum e). repeat split. Qed.

(** C50: the error is the first unknown or repeated key, else the first missing field. *)
Theorem C50_extrinsics_errors {T} {O : Ops T} (pre post : list (string * sval T)) (k : string) (v : sval T) :
  NoDup (map fst pre) ->
  (forall k v, In (k, v) pre ->
    (k = "rquat" /\ exists q, de_quat v = DOk q) \/ (k = "camcenter" /\ exists c, de_v3 v = DOk c)) ->
  (k <> "rquat" -> k <> "camcenter" ->
     de_extrinsics (SMap (pre ++ (k, v) :: post)) = DErr (UnknownField k)) /\
  (In k (map fst pre) -> de_extrinsics (SMap (pre ++ (k, v) :: post)) = DErr (DuplicateField k)) /\
  (~ In "rquat" (map fst pre) -> de_extrinsics (SMap pre) = DErr (MissingField "rquat")) /\
  (In "rquat" (map fst pre) -> ~ In "camcenter" (map fst pre) ->
     de_extrinsics (SMap pre) = DErr (MissingField "camcenter")).
Proof. exact (C50g_lemma pre post k v). Qed.
Print Assumptions C50_extrinsics_errors.

Example C50_errors_case {T} {O : Ops T} (q : Quat T) (v : sval T) :
  de_extrinsics (SMap [("rquat", ser_quat q); ("rquat", v)]) = DErr (DuplicateField "rquat") /\
  de_extrinsics (SMap [("rquat", ser_quat q); ("Camcenter", v)]) = DErr (UnknownField "Camcenter") /\
  de_extrinsics (SMap [("rquat", ser_quat q)]) = DErr (MissingField "camcenter").
Proof.
  assert (H : forall k' v', In (k', v') [("rquat", ser_quat q)] ->
    (k' = "rquat" /\ exists q, de_quat v' = DOk q) \/ (k' = "camcenter" /\ exists c, de_v3 v' = DOk c)).
  { intros k' v' [E|[]]. injection E as <- <-. left. split; [reflexivity|]. exists q. destruct q. reflexivity. }
  assert (ND : NoDup (map fst [("rquat", ser_quat q)])) by (repeat constructor; intros []).
  pose proof (fun k => C50_extrinsics_errors [("rquat", ser_quat q)] [] k v ND H) as G. split; [|split].
  - apply (G "rquat"). left. reflexivity.
  - apply (G "Camcenter"); discriminate.
  - apply (G "rquat"); [left; reflexivity|]. intros [E|[]]. discriminate.
Qed.

(** C50: errors of the perspective intrinsics. *)
Theorem C50_perspective_errors {T} {O : Ops T} (es : list (string * sval T)) (k : string) (v1 v : sval T) (p : PerspectiveParams T) :
  de_persp_params v1 = DOk p ->
  de_persp (SMap []) = DErr (MissingField "params") /\
  de_persp (SMap (("params", v1) :: ("params", v) :: es)) = DErr (DuplicateField "params") /\
  (k <> "params" -> de_persp (SMap ((k, v) :: es)) = DErr (UnknownField k)) /\
  (k <> "params" -> de_persp (SMap (("params", v1) :: (k, v) :: es)) = DErr (UnknownField k)).
Proof. exact (C50h_lemma es k v1 v p). Qed.
Print Assumptions C50_perspective_errors.

Example C50_perspective_errors_case {T} {O : Ops T} (p : PerspectiveParams T) :
  de_persp (SMap [("params", ser_persp_params p); ("params", SUnit)]) = DErr (DuplicateField "params").
Proof. apply (C50_perspective_errors [] "x" (ser_persp_params p) SUnit p). destruct p. reflexivity. Qed.

Local Open Scope R_scope.
(** C51: every quaternion is accepted, unit or not; distances are preserved only if it is unit (or has no vector part). *)
Theorem C51_any_quaternion_accepted (q : Quat R) (c : V3 R) :
  de_extrinsics (SMap [("rquat", SSeq [SNum (qi q); SNum (qj q); SNum (qk q); SNum (qw q)]);
                       ("camcenter", SSeq [SNum (vx c); SNum (vy c); SNum (vz c)])])%string
    = DOk (from_rotation_and_camcenter q c) /\
  ((forall x y, exists x' y',
      world_to_camera (from_rotation_and_camcenter q c) (mkPoints [x; y]) = Some (mkPoints [x'; y']) /\
      vdist x' y' = vdist x y)
   <-> unit_quat q \/ (qi q = 0 /\ qj q = 0 /\ qk q = 0)).
Proof. exact (C51_lemma q c). Qed.
Print Assumptions C51_any_quaternion_accepted.

(** C51: an accepted document whose world_to_camera stretches a unit distance to the square root of 5. *)
Theorem C51_distances_not_preserved : exists v e x y x' y',
  de_extrinsics (O := R_ops) v = DOk e /\
  world_to_camera e (mkPoints [x; y]) = Some (mkPoints [x'; y']) /\
  vdist x y = 1 /\ vdist x' y' = sqrt 5.
Proof. exact C51b_lemma. Qed.
Print Assumptions C51_distances_not_preserved.

Local Open Scope string_scope.
(** C52: ray bundles of both kinds, static and dynamic storage, any number of rays. *)
Theorem C52_bundle_roundtrip {T} {O : Ops T} Coords (so : RayBundle Coords (SharedOriginRayBundle T) T)
    (sd : RayBundle Coords (SharedDirectionRayBundle T) T) (v : sval T) :
  (reencoding (ser_bundle ser_smatrix ser_so so) v ->
   de_bundle (de_smatrix (List.length (rb_data so))) de_so v = DOk so) /\
  (reencoding (ser_bundle ser_smatrix ser_sd sd) v ->
   de_bundle (de_smatrix (List.length (rb_data sd))) de_sd v = DOk sd) /\
  (reencoding (ser_bundle ser_dmatrix ser_so so) v -> de_bundle de_dmatrix de_so v = DOk so) /\
  (reencoding (ser_bundle ser_dmatrix ser_sd sd) v -> de_bundle de_dmatrix de_sd v = DOk sd).
Proof. exact (C52_lemma Coords so sd v). Qed.
Print Assumptions C52_bundle_roundtrip.

(** the column-major form of two rays *)
Example C52_case {T} {O : Ops T} (a b c d e f x y z : T) :
  de_bundle (Coords := WorldFrame) (de_smatrix 2) de_so
    (SMap [("data", SSeq [SNum a; SNum d; SNum b; SNum e; SNum c; SNum f]); ("coords", SUnit);
           ("bundle_type", SMap [("center", SSeq [SNum x; SNum y; SNum z])])])
  = DOk (mkRayBundle [mkV3 a b c; mkV3 d e f] (mkSO (mkV3 x y z))).
Proof.
  apply (C52_bundle_roundtrip WorldFrame (mkRayBundle [mkV3 a b c; mkV3 d e f] (mkSO (mkV3 x y z))) (mkRayBundle [] (mkSD (mkV3 x y z)))).
  eapply re_map; [|apply perm_swap].
  constructor; [split; [reflexivity|constructor]|].
  constructor; [split; [reflexivity|apply re_seq; repeat constructor]|].
  constructor; [|constructor]. split; [reflexivity|]. eapply re_map; [|apply Permutation_refl]. repeat constructor.
Qed.

