(** * SerdeProofs2.v - error kinds of the hand-written deserializer, and C51 *)

From Coq Require Import List String ZArith Arith Bool Lia Permutation Reals Lra Psatz.
From Verif Require Import Scalar Linalg Bundles Extrinsics Perspective Orthographic Camera Serde SpecSerde Spec Rows RealBase VecLemmas ExtrinsicsProofs CamMatProofs SerdeProofs.
Import ListNotations.
Local Open Scope string_scope.

Section E.
Context {T : Type} {O : Ops T}.

(** entries with known, distinct keys and values of the right type *)
Definition good_entries (pre : list (string * sval T)) : Prop :=
  NoDup (map fst pre) /\
  forall k v, In (k, v) pre ->
    (k = "rquat" /\ exists q, de_quat v = DOk q) \/ (k = "camcenter" /\ exists c, de_v3 v = DOk c).

Lemma extr_loop_app pre rest : forall sq sc,
  (forall k v, In (k, v) pre ->
    (k = "rquat" /\ exists q, de_quat v = DOk q) \/ (k = "camcenter" /\ exists c, de_v3 v = DOk c)) ->
  NoDup (map fst pre) ->
  (sq <> None -> ~ In "rquat" (map fst pre)) -> (sc <> None -> ~ In "camcenter" (map fst pre)) ->
  exists sq' sc', extr_loop (pre ++ rest) sq sc = extr_loop rest sq' sc' /\
    (sq' <> None <-> (sq <> None \/ In "rquat" (map fst pre))) /\
    (sc' <> None <-> (sc <> None \/ In "camcenter" (map fst pre))).
Proof.
  induction pre as [|[k v] pre IH]; intros sq sc Hg ND Hq Hc.
  - exists sq, sc. cbn. tauto.
  - cbn [map fst] in *. inversion ND as [|? ? Hn ND']; subst.
    assert (Hg' : forall k v, In (k, v) pre ->
      (k = "rquat" /\ exists q, de_quat v = DOk q) \/ (k = "camcenter" /\ exists c, de_v3 v = DOk c))
      by (intros; apply Hg; right; assumption).
    destruct (Hg k v (or_introl eq_refl)) as [(-> & q & Eq)|(-> & c & Ec)].
    + destruct sq as [q0|]; [exfalso; apply Hq; [discriminate|left; reflexivity]|].
      destruct (IH (Some q) sc Hg' ND' (fun _ => Hn)) as (sq' & sc' & E & E1 & E2).
      { intros H H'. apply (Hc H). right. exact H'. }
      exists sq', sc'. cbn. rewrite Eq. cbn. split; [exact E|]. split.
      * rewrite E1. split; [intros _; right; left; reflexivity|intros _; left; discriminate].
      * rewrite E2. split; [intros [H|H]; auto|intros [H|[H|H]]; [auto|discriminate|auto]].
    + destruct sc as [c0|]; [exfalso; apply Hc; [discriminate|left; reflexivity]|].
      destruct (IH sq (Some c) Hg' ND') as (sq' & sc' & E & E1 & E2).
      { intros H H'. apply (Hq H). right. exact H'. }
      { intros _. exact Hn. }
      exists sq', sc'. cbn. rewrite Ec. cbn. split; [exact E|]. split.
      * rewrite E1. split; [intros [H|H]; auto|intros [H|[H|H]]; [auto|discriminate|auto]].
      * rewrite E2. split; [intros _; right; left; reflexivity|intros _; left; discriminate].
Qed.

Lemma C50g_lemma (pre post : list (string * sval T)) (k : string) (v : sval T) :
  NoDup (map fst pre) ->
  (forall k v, In (k, v) pre ->
    (k = "rquat" /\ exists q, de_quat v = DOk q) \/ (k = "camcenter" /\ exists c, de_v3 v = DOk c)) ->
  (k <> "rquat" -> k <> "camcenter" ->
     de_extrinsics (SMap (pre ++ (k, v) :: post)) = DErr (UnknownField k)) /\
  (In k (map fst pre) -> de_extrinsics (SMap (pre ++ (k, v) :: post)) = DErr (DuplicateField k)) /\
  (~ In "rquat" (map fst pre) -> de_extrinsics (SMap pre) = DErr (MissingField "rquat")) /\
  (In "rquat" (map fst pre) -> ~ In "camcenter" (map fst pre) ->
     de_extrinsics (SMap pre) = DErr (MissingField "camcenter")).
Proof.
  intros ND Hg.
  assert (N0 : (@None (Quat T)) <> None -> ~ In "rquat" (map fst pre)) by congruence.
  assert (N1 : (@None (V3 T)) <> None -> ~ In "camcenter" (map fst pre)) by congruence.
  cbn [de_extrinsics deserialize_struct]. unfold extr_visit_map.
  destruct (extr_loop_app pre ((k, v) :: post) None None Hg ND N0 N1) as (sq & sc & E & Eq & Ec).
  destruct (extr_loop_app pre [] None None Hg ND N0 N1) as (sq1 & sc1 & E1 & Eq1 & Ec1).
  rewrite app_nil_r in E1. rewrite E, E1. cbn [extr_loop dbind fst snd]. unfold efield_of.
  split; [|split; [|split]].
  - intros K1 K2. destruct (String.eqb_spec k "rquat"); [contradiction|].
    destruct (String.eqb_spec k "camcenter"); [contradiction|]. reflexivity.
  - intros Hin. destruct (String.eqb_spec k "rquat") as [->|K1].
    + destruct sq; [reflexivity|]. exfalso. apply (proj2 Eq); auto.
    + destruct (String.eqb_spec k "camcenter") as [->|K2].
      * cbn. destruct sc; [reflexivity|]. exfalso. apply (proj2 Ec); auto.
      * exfalso. apply in_map_iff in Hin. destruct Hin as ([k' v'] & Ek & Hin). cbn in Ek. subst k'.
        destruct (Hg k v' Hin) as [(? & _)|(? & _)]; contradiction.
  - intros Hin. destruct sq1 as [q|]; [|reflexivity]. exfalso.
    destruct (proj1 Eq1) as [H|H]; try discriminate; [now apply H|contradiction].
  - intros Hin Hc. destruct sq1 as [q|]; [|exfalso; apply (proj2 Eq1); auto].
    destruct sc1 as [c|]; [|reflexivity]. exfalso.
    destruct (proj1 Ec1) as [H|H]; try discriminate; [now apply H|contradiction].
Qed.

(** the single field of the perspective intrinsics *)
Lemma C50h_lemma (es : list (string * sval T)) (k : string) (v1 v : sval T) (p : PerspectiveParams T) :
  de_persp_params v1 = DOk p ->
  de_persp (SMap []) = DErr (MissingField "params") /\
  de_persp (SMap (("params", v1) :: ("params", v) :: es)) = DErr (DuplicateField "params") /\
  (k <> "params" -> de_persp (SMap ((k, v) :: es)) = DErr (UnknownField k)) /\
  (k <> "params" -> de_persp (SMap (("params", v1) :: (k, v) :: es)) = DErr (UnknownField k)).
Proof.
  intros E. cbn. unfold persp_visit_map. cbn. rewrite E. cbn.
  repeat split; intros H; destruct (String.eqb_spec k "params"); try contradiction; reflexivity.
Qed.

Lemma C49g_lemma (pmat : M34 T) : exists cam, from_perspective_matrix pmat = Some (Ok cam) /\
  forall v, reencoding (ser_camera ser_persp cam) v -> de_camera de_persp v = DOk cam.
Proof.
  destruct (C36_lemma pmat) as (cam & E). exists cam. split; [exact E|].
  intros v. exact (C49f_lemma pmat cam v E).
Qed.
End E.

(** ** Quaternions which are not unit *)
Local Open Scope R_scope.

Lemma rotate_len q v :
  vdot (q_rotate q v) (q_rotate q v)
  = vdot v v + 4 * (qnorm2 q - 1) * vdot (vcross (q_vec q) v) (vcross (q_vec q) v).
Proof. destruct q as [x y z w], v as [a b c]. ru. ring. Qed.

Lemma rotate_sub q a b : q_rotate q (vsub a b) = vsub (q_rotate q a) (q_rotate q b).
Proof. destruct q as [x y z w], a, b. apply V3_eq; ru; ring. Qed.

Lemma w2c_dist q c x y : exists x' y',
  world_to_camera (frc q c) (mkPoints [x; y]) = Some (mkPoints [x'; y']) /\
  vsub x' y' = q_rotate q (vsub x y).
Proof.
  rewrite world_to_camera_rows. cbn [map]. do 2 eexists. split; [reflexivity|].
  rewrite rotate_sub. unfold iso_transform_point. cbn [frc e_cache c_pose iso_rot iso_trans].
  tospec. vring.
Qed.

Lemma C51_lemma (q : Quat R) (c : V3 R) :
  de_extrinsics (SMap [("rquat", SSeq [SNum (qi q); SNum (qj q); SNum (qk q); SNum (qw q)]);
                       ("camcenter", SSeq [SNum (vx c); SNum (vy c); SNum (vz c)])])%string
    = DOk (from_rotation_and_camcenter q c) /\
  ((forall x y, exists x' y',
      world_to_camera (from_rotation_and_camcenter q c) (mkPoints [x; y]) = Some (mkPoints [x'; y']) /\
      vdist x' y' = vdist x y)
   <-> unit_quat q \/ (qi q = 0 /\ qj q = 0 /\ qk q = 0)).
Proof.
  split.
  - apply C50a_lemma. do 2 eexists. exists q, c. split; [apply Permutation_refl|].
    split; [apply (de_quat_re q); constructor; repeat constructor|].
    split; [apply (de_v3_re c); constructor; repeat constructor|reflexivity].
  - split.
    + intros H.
      assert (K : forall v, (qnorm2 q - 1) * vdot (vcross (q_vec q) v) (vcross (q_vec q) v) = 0).
      { intros v. destruct (H v vO) as (x' & y' & E & D).
        destruct (w2c_dist q c v vO) as (x2 & y2 & E2 & D2). rewrite E in E2. injection E2 as -> ->.
        unfold vdist, vlen in D. rewrite D2 in D. apply sqrt_inj in D; [|apply vdot_self_nonneg..].
        rewrite rotate_len in D. assert (Ev : vsub v vO = v) by (destruct v; apply V3_eq; ru_spec; ring).
        rewrite Ev in D.
        lra. }
      destruct (Req_dec (qnorm2 q) 1) as [E|N]; [left; exact E|right].
      assert (K' : forall v, vdot (vcross (q_vec q) v) (vcross (q_vec q) v) = 0).
      { intros v. specialize (K v). apply Rmult_integral in K. destruct K; [lra|assumption]. }
      pose proof (K' (mkV3 1 0 0)) as K1. pose proof (K' (mkV3 0 1 0)) as K2.
      destruct q as [i j k w]. clear -K1 K2. revert K1 K2. ru. intros K1 K2.
      repeat split; nra.
    + intros H x y. destruct (w2c_dist q c x y) as (x' & y' & E & D). exists x', y'. split; [exact E|].
      unfold vdist, vlen. rewrite D, rotate_len. f_equal.
      destruct H as [U|(E1 & E2 & E3)].
      * unfold unit_quat in U. rewrite U. ring.
      * destruct q as [i j k w]. cbn [qi qj qk] in *. subst i j k.
        unfold q_vec. cbn [qi qj qk]. ru. ring.
Qed.

Lemma C51b_lemma : exists v e x y x' y',
  de_extrinsics (O := R_ops) v = DOk e /\
  world_to_camera e (mkPoints [x; y]) = Some (mkPoints [x'; y']) /\
  vdist x y = 1 /\ vdist x' y' = sqrt 5.
Proof.
  exists (SMap [("rquat", SSeq [SNum 0; SNum 0; SNum 1; SNum 1]);
                ("camcenter", SSeq [SNum 0; SNum 0; SNum 0])])%string.
  exists (from_rotation_and_camcenter (mkQuat 0 0 1 1) (mkV3 0 0 0)), (mkV3 1 0 0), (mkV3 0 0 0).
  destruct (w2c_dist (mkQuat 0 0 1 1) (mkV3 0 0 0) (mkV3 1 0 0) (mkV3 0 0 0)) as (x' & y' & E & D).
  exists x', y'. split; [reflexivity|]. split; [exact E|]. unfold vdist, vlen. rewrite D. split.
  - transitivity (sqrt 1); [f_equal; ru; ring|apply sqrt_1].
  - f_equal. rewrite rotate_len. ru. ring.
Qed.
