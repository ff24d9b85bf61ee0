(** * EqualityProofs.v - equality of values (C92-C94) *)

From Coq Require Import ZArith Reals List Bool String Lra Lia.
From Flocq Require Import Core BinarySingleNaN.
From Verif Require Import Scalar Linalg Bundles Extrinsics Perspective Orthographic Camera Equality Rows Spec SpecEq
  RealBase VecLemmas ExtrinsicsProofs UniqueProofs.
Import ListNotations.

(** ** Symmetry and transitivity, for any scalars whose comparison has them *)
Section PER.
Context {T : Type} {O : Ops T}.
Hypotheses (esym : forall a b : T, o_eqb a b = true -> o_eqb b a = true)
  (etrans : forall a b c : T, o_eqb a b = true -> o_eqb b c = true -> o_eqb a c = true)
  (eneg : forall a b : T, o_eqb a (o_neg b) = true -> o_eqb b (o_neg a) = true)
  (enn : forall a b c : T, o_eqb a (o_neg b) = true -> o_eqb b (o_neg c) = true -> o_eqb a c = true)
  (epn : forall a b c : T, o_eqb a b = true -> o_eqb b (o_neg c) = true -> o_eqb a (o_neg c) = true).
Local Ltac ands := repeat rewrite andb_true_iff in *; repeat match goal with H : _ /\ _ |- _ => destruct H end; repeat split; eauto 2.
Lemma v3_per : partial_equivalence v3_eqb. Proof. split; unfold v3_eqb; intros; ands. Qed.
Lemma m33_per : partial_equivalence m33_eqb. Proof. split; unfold m33_eqb; intros; ands. Qed.
Lemma m34_per : partial_equivalence m34_eqb. Proof. split; unfold m34_eqb; intros; ands. Qed.
Lemma coords_per : partial_equivalence coords_eqb. Proof. split; unfold coords_eqb; intros; ands. Qed.
Lemma eneg' (a b : T) : o_eqb a (o_neg b) = true -> o_eqb b (o_neg a) = true. Proof. exact (eneg a b). Qed.
Lemma quat_per : partial_equivalence quat_eqb.
Proof.
  assert (N : forall a b, coords_eqb a (q_neg b) = true -> coords_eqb b (q_neg a) = true).
  { unfold coords_eqb, q_neg. cbn [qi qj qk qw]. intros; ands. }
  assert (NN : forall a b c, coords_eqb a (q_neg b) = true -> coords_eqb b (q_neg c) = true -> coords_eqb a c = true).
  { unfold coords_eqb, q_neg. cbn [qi qj qk qw]. intros; ands. }
  assert (PN : forall a b c, coords_eqb a b = true -> coords_eqb b (q_neg c) = true -> coords_eqb a (q_neg c) = true).
  { unfold coords_eqb, q_neg. cbn [qi qj qk qw]. intros; ands. }
  destruct coords_per as (S & Tr). split; unfold quat_eqb.
  - intros a b H. apply orb_true_iff in H. apply orb_true_iff. destruct H; auto.
  - intros a b c H1 H2. apply orb_true_iff in H1, H2. apply orb_true_iff. destruct H1 as [H1|H1], H2 as [H2|H2]; eauto.
    right. apply N. eapply PN; [apply S; exact H2|]. now apply N.
Qed.
Lemma iso_per : partial_equivalence iso_eqb.
Proof. destruct v3_per, quat_per. split; unfold iso_eqb; intros; ands. Qed.
Lemma cache_per : partial_equivalence cache_eqb.
Proof. destruct v3_per, m33_per, m34_per, iso_per. split; unfold cache_eqb; intros; ands. Qed.
Lemma extrinsics_per : partial_equivalence extrinsics_eqb.
Proof. destruct v3_per, quat_per, cache_per. split; unfold extrinsics_eqb; intros; ands. Qed.
Lemma perspective_per : partial_equivalence perspective_eqb.
Proof. destruct m34_per. split; unfold perspective_eqb, persp_params_eqb; intros; ands. Qed.
Lemma orthographic_per : partial_equivalence orthographic_eqb.
Proof. split; unfold orthographic_eqb, ortho_params_eqb; intros; ands. Qed.
Lemma camera_per {I} (eqI : I -> I -> bool) : partial_equivalence eqI -> partial_equivalence (camera_eqb eqI).
Proof. intros (? & ?). destruct extrinsics_per. split; unfold camera_eqb; intros; ands. Qed.
Lemma rows_per : partial_equivalence rows_eqb.
Proof.
  destruct v3_per. split.
  - induction a; destruct b; cbn; intros; try discriminate; auto. ands.
  - induction a; destruct b, c; cbn; intros; try discriminate; auto. ands.
Qed.
Lemma bundle_per {C B} (eqB : B -> B -> bool) : partial_equivalence eqB -> partial_equivalence (bundle_eqb (C := C) eqB).
Proof. intros (? & ?). destruct rows_per. split; unfold bundle_eqb; intros; ands. Qed.
Lemma shared_origin_per : partial_equivalence shared_origin_eqb.
Proof. destruct v3_per. split; unfold shared_origin_eqb; intros; eauto. Qed.
Lemma shared_direction_per : partial_equivalence shared_direction_eqb.
Proof. destruct v3_per. split; unfold shared_direction_eqb; intros; eauto. Qed.
End PER.

(** ** Self-equality *)
Section Self.
Context {T : Type} {O : Ops T}.
Let ok (x : T) : Prop := o_eqb x x = true.
Hypothesis noeq_neg : forall x : T, o_eqb x (o_neg x) = true -> ok x.
Lemma Forall_app_iff (l l' : list T) P : Forall P (l ++ l') <-> Forall P l /\ Forall P l'. Proof. apply Forall_app. Qed.
Lemma Forall_cons_iff' (x : T) l P : Forall P (x :: l) <-> P x /\ Forall P l. Proof. apply Forall_cons_iff. Qed.
Lemma Forall_nil_iff' (P : T -> Prop) : Forall P [] <-> True. Proof. split; auto. Qed.
Local Ltac selfs := rewrite ?andb_true_iff, ?Forall_app_iff, ?Forall_cons_iff', ?Forall_nil_iff'; unfold ok; tauto.
Lemma v3_self a : v3_eqb a a = true <-> Forall ok (v3_numbers a). Proof. unfold v3_eqb, v3_numbers. selfs. Qed.
Lemma m33_self a : m33_eqb a a = true <-> Forall ok (m33_numbers a). Proof. unfold m33_eqb, m33_numbers. selfs. Qed.
Lemma m34_self a : m34_eqb a a = true <-> Forall ok (m34_numbers a). Proof. unfold m34_eqb, m34_numbers. selfs. Qed.
Lemma quat_self a : quat_eqb a a = true <-> Forall ok (quat_numbers a).
Proof.
  unfold quat_eqb, coords_eqb, quat_numbers, q_neg. cbn [qi qj qk qw].
  rewrite orb_true_iff, !andb_true_iff, !Forall_cons_iff', Forall_nil_iff'. pose proof (noeq_neg (qi a)). pose proof (noeq_neg (qj a)).
  pose proof (noeq_neg (qk a)). pose proof (noeq_neg (qw a)). unfold ok in *. tauto.
Qed.
Lemma iso_self a : iso_eqb a a = true <-> Forall ok (iso_numbers a).
Proof. unfold iso_eqb, iso_numbers. rewrite andb_true_iff, v3_self, quat_self, Forall_app_iff. tauto. Qed.
Lemma extrinsics_self e : extrinsics_eqb e e = true <-> Forall ok (extrinsics_numbers e).
Proof.
  unfold extrinsics_eqb, cache_eqb, extrinsics_numbers. rewrite !andb_true_iff, !v3_self, !m33_self, !m34_self, !iso_self, quat_self.
  cbv zeta. rewrite !Forall_app_iff. tauto.
Qed.
Lemma perspective_self k : perspective_eqb k k = true <-> Forall ok (perspective_numbers k).
Proof. unfold perspective_eqb, persp_params_eqb, perspective_numbers. rewrite !andb_true_iff, m34_self. cbv zeta. rewrite Forall_app_iff. selfs. Qed.
Lemma orthographic_self k : orthographic_eqb k k = true <-> Forall ok (orthographic_numbers k).
Proof. unfold orthographic_eqb, ortho_params_eqb, orthographic_numbers. selfs. Qed.
Lemma rows_self l : rows_eqb l l = true <-> Forall ok (flat_map v3_numbers l).
Proof.
  induction l as [|a l IH]; cbn [rows_eqb flat_map]; [rewrite Forall_nil_iff'; tauto|].
  rewrite andb_true_iff, Forall_app_iff, v3_self, IH. tauto.
Qed.
Lemma bundle_self {C B} eqB (nB : B -> list T) (b : RayBundle C B T) : (forall t, eqB t t = true <-> Forall ok (nB t)) ->
  bundle_eqb eqB b b = true <-> Forall ok (bundle_numbers nB b).
Proof. intros H. unfold bundle_eqb, bundle_numbers. rewrite andb_true_iff, Forall_app_iff, rows_self, H. tauto. Qed.
End Self.

(** ** IEEE arithmetic *)
Section IEEE.
Variables (prec emax : Z) (Hp : Prec_gt_0 prec) (He : Prec_lt_emax prec emax).
Variables fsin fcos : binary_float prec emax -> binary_float prec emax.
Local Notation F := (binary_float prec emax).
Local Hint Extern 0 (Ops (binary_float prec emax)) =>
  exact (B_ops prec emax Hp He fsin fcos) : typeclass_instances.
Local Open Scope R_scope.
Local Instance fexp_valid : Valid_exp (SpecFloat.fexp prec emax) := fexp_correct prec emax Hp.

Lemma feqb_iff (x y : F) : o_eqb x y = true <-> is_nan x = false /\ same_number x y.
Proof.
  change (Beqb x y = true <-> is_nan x = false /\ same_number x y). split.
  - intros H. destruct x as [s|s| |s m e B], y as [s'|s'| |s' m' e' B']; try discriminate; try (destruct s; discriminate); try (destruct s'; discriminate); try (destruct s, s'; discriminate);
      (split; [reflexivity|]).
    + right. now exists s, s'.
    + left. destruct s, s'; try discriminate; reflexivity.
    + left. apply B2R_inj; [reflexivity|reflexivity|]. rewrite Beqb_correct in H by reflexivity. revert H. case Req_bool_spec; [auto|discriminate].
  - intros (N & [<-|(s & t & -> & ->)]); [|reflexivity].
    destruct (is_finite x) eqn:Fx.
    + rewrite Beqb_correct by assumption. now apply Req_bool_true.
    + destruct x as [s|s| |s m e B]; try discriminate. now destruct s.
Qed.
Lemma same_refl (x : F) : same_number x x. Proof. now left. Qed.
Lemma same_sym (x y : F) : same_number x y -> same_number y x.
Proof. intros [->|(s & t & -> & ->)]; [now left|right; now exists t, s]. Qed.
Lemma same_trans (x y z : F) : same_number x y -> same_number y z -> same_number x z.
Proof.
  intros [->|(s & t & -> & ->)]; [auto|]. intros [<-|(s' & t' & E & ->)]; [right; now exists s, t|]. right. now exists s, t'.
Qed.
Lemma same_neg (x y : F) : same_number x y -> same_number (o_neg x) (o_neg y).
Proof. intros [->|(s & t & -> & ->)]; [now left|right; now exists (negb s), (negb t)]. Qed.
Lemma neg_neg (x : F) : o_neg (o_neg x) = x. Proof. apply Bopp_involutive. Qed.
Lemma same_nan (x y : F) : same_number x y -> is_nan x = is_nan y.
Proof. intros [->|(s & t & -> & ->)]; reflexivity. Qed.
Lemma neg_nan' (x : F) : is_nan (o_neg x) = is_nan x. Proof. apply is_nan_Bopp. Qed.

Lemma f_sym (a b : F) : o_eqb a b = true -> o_eqb b a = true.
Proof. rewrite !feqb_iff. intros (N & S). split; [now rewrite <- (same_nan _ _ S)|now apply same_sym]. Qed.
Lemma f_trans (a b c : F) : o_eqb a b = true -> o_eqb b c = true -> o_eqb a c = true.
Proof. rewrite !feqb_iff. intros (N & S) (_ & S'). split; [exact N|eapply same_trans; eassumption]. Qed.
Lemma f_neg (a b : F) : o_eqb a (o_neg b) = true -> o_eqb b (o_neg a) = true.
Proof.
  rewrite !feqb_iff. intros (N & S). split; [rewrite <- neg_nan', <- (same_nan _ _ S); exact N|].
  apply same_sym. rewrite <- (neg_neg b). now apply same_neg.
Qed.
Lemma f_nn (a b c : F) : o_eqb a (o_neg b) = true -> o_eqb b (o_neg c) = true -> o_eqb a c = true.
Proof.
  rewrite !feqb_iff. intros (N & S) (_ & S'). split; [exact N|]. eapply same_trans; [exact S|]. rewrite <- (neg_neg c). now apply same_neg.
Qed.
Lemma f_pn (a b c : F) : o_eqb a b = true -> o_eqb b (o_neg c) = true -> o_eqb a (o_neg c) = true.
Proof. apply f_trans. Qed.

Lemma C92_lemma :
  partial_equivalence (extrinsics_eqb (T := F)) /\
  partial_equivalence (perspective_eqb (T := F)) /\
  partial_equivalence (orthographic_eqb (T := F)) /\
  (forall I (eqI : I -> I -> bool), partial_equivalence eqI -> partial_equivalence (camera_eqb (T := F) eqI)) /\
  partial_equivalence (shared_origin_eqb (T := F)) /\
  partial_equivalence (shared_direction_eqb (T := F)) /\
  (forall C B (eqB : B -> B -> bool), partial_equivalence eqB -> partial_equivalence (bundle_eqb (T := F) (C := C) eqB)).
Proof.
  pose proof f_sym as A. pose proof f_trans as B. pose proof f_neg as D. pose proof f_nn as E. pose proof f_pn as G.
  split; [exact (extrinsics_per A B D E)|]. split; [exact (perspective_per A B)|]. split; [exact (orthographic_per A B)|].
  split; [intros I eqI H; exact (camera_per A B D E eqI H)|]. split; [exact (shared_origin_per A B)|]. split; [exact (shared_direction_per A B)|].
  intros C B' eqB H. exact (bundle_per A B eqB H).
Qed.

Lemma self_nan (x : F) : o_eqb x x = true <-> is_nan x = false.
Proof. rewrite feqb_iff. split; [now intros (N & _)|intros N; split; [exact N|apply same_refl]]. Qed.
Lemma self_neg (x : F) : o_eqb x (o_neg x) = true -> o_eqb x x = true.
Proof. rewrite self_nan, feqb_iff. now intros (N & _). Qed.
Lemma Forall_self (l : list F) : Forall (fun x => o_eqb x x = true) l <-> Forall (fun x => is_nan x = false) l.
Proof. rewrite !Forall_forall. split; intros H x I; apply self_nan, H, I. Qed.
Lemma C92b_lemma :
  (forall e : ExtrinsicParameters F, extrinsics_eqb e e = true <-> Forall (fun x => is_nan x = false) (extrinsics_numbers e)) /\
  (forall k : IntrinsicParametersPerspective F, perspective_eqb k k = true <-> Forall (fun x => is_nan x = false) (perspective_numbers k)) /\
  (forall k : IntrinsicParametersOrthographic F, orthographic_eqb k k = true <-> Forall (fun x => is_nan x = false) (orthographic_numbers k)) /\
  (forall C (b : RayBundle C (SharedOriginRayBundle F) F), bundle_eqb shared_origin_eqb b b = true <->
     Forall (fun x => is_nan x = false) (bundle_numbers (fun t => v3_numbers (so_center t)) b)) /\
  (forall C (b : RayBundle C (SharedDirectionRayBundle F) F), bundle_eqb shared_direction_eqb b b = true <->
     Forall (fun x => is_nan x = false) (bundle_numbers (fun t => v3_numbers (sd_direction t)) b)).
Proof.
  split; [|split; [|split; [|split]]]; intros.
  - rewrite <- Forall_self. apply extrinsics_self. exact self_neg.
  - rewrite <- Forall_self. apply perspective_self.
  - rewrite <- Forall_self. apply orthographic_self.
  - rewrite <- Forall_self. apply bundle_self. intros t. apply v3_self.
  - rewrite <- Forall_self. apply bundle_self. intros t. apply v3_self.
Qed.

(** *** congruence *)
Lemma same_real (x y : F) : is_finite x = true -> is_finite y = true -> B2R x = B2R y -> same_number x y.
Proof.
  intros Fx Fy E. destruct (is_finite_strict x) eqn:Sx, (is_finite_strict y) eqn:Sy.
  - left. now apply B2R_inj.
  - destruct y as [t| | |]; try discriminate. destruct x as [| | |s m e B]; try discriminate. cbn in E. apply eq_0_F2R in E. destruct s; discriminate.
  - destruct x as [s| | |]; try discriminate. destruct y as [| | |t m e B]; try discriminate. cbn in E. symmetry in E. apply eq_0_F2R in E. destruct t; discriminate.
  - destruct x as [s| | |], y as [t| | |]; try discriminate. right. now exists s, t.
Qed.
Local Ltac sgn s s' := try (left; cbn; reflexivity); try (left; cbn; destruct s; reflexivity); try (left; cbn; destruct s'; reflexivity);
  try (left; cbn; destruct s, s'; reflexivity).
Lemma B2SF_Bopp (x : F) : B2SF (Bopp x) = SpecFloat.SFopp (B2SF x). Proof. now destruct x. Qed.
(** [b] says whether the sign is flipped *)
Definition rel (b : bool) (x y : F) : Prop := same_number x (if b then o_neg y else y).
Lemma same_add (x x' y y' : F) : same_number x x' -> same_number y y' -> same_number (o_add x y) (o_add x' y').
Proof.
  intros [->|(s & t & -> & ->)] [->|(s' & t' & -> & ->)].
  - apply same_refl.
  - destruct x' as [r|r| |r m e B]; try apply same_refl. right. destruct r, s', t'; cbn; eauto.
  - destruct y' as [r|r| |r m e B]; try apply same_refl. right. destruct r, s, t; cbn; eauto.
  - right. destruct s, t, s', t'; cbn; eauto.
Qed.
Lemma same_sub (x x' y y' : F) : same_number x x' -> same_number y y' -> same_number (o_sub x y) (o_sub x' y').
Proof.
  intros [->|(s & t & -> & ->)] [->|(s' & t' & -> & ->)].
  - apply same_refl.
  - destruct x' as [r|r| |r m e B]; try apply same_refl. right. destruct r, s', t'; cbn; eauto.
  - destruct y' as [r|r| |r m e B]; try apply same_refl. right. destruct r, s, t; cbn; eauto.
  - right. destruct s, t, s', t'; cbn; eauto.
Qed.
Lemma same_mul (x x' y y' : F) : same_number x x' -> same_number y y' -> same_number (o_mul x y) (o_mul x' y').
Proof.
  intros [->|(s & t & -> & ->)] [->|(s' & t' & -> & ->)].
  - apply same_refl.
  - destruct x' as [r|r| |r m e B]; try apply same_refl; right; cbn; eauto.
  - destruct y' as [r|r| |r m e B]; try apply same_refl; right; cbn; eauto.
  - right. cbn; eauto.
Qed.
Lemma opp_mul (x y : F) : same_number (o_mul (o_neg x) y) (o_neg (o_mul x y)).
Proof.
  destruct x as [s|s| |s m e B], y as [s'|s'| |s' m' e' B']; sgn s s'.
  change (same_number (Bmult mode_NE (Bopp (B754_finite s m e B)) (B754_finite s' m' e' B')) (Bopp (Bmult mode_NE (B754_finite s m e B) (B754_finite s' m' e' B')))).
  set (x := B754_finite s m e B) in *. set (y := B754_finite s' m' e' B').
  pose proof (Bmult_correct prec emax Hp He mode_NE (Bopp x) y) as P. pose proof (Bmult_correct prec emax Hp He mode_NE x y) as Q.
  rewrite B2R_Bopp, <- Ropp_mult_distr_l, round_NE_opp, Rabs_Ropp in P.
  destruct (Rlt_bool _ _).
  - destruct P as (P1 & P2 & _), Q as (Q1 & Q2 & _). apply same_real.
    + now rewrite P2.
    + now rewrite is_finite_Bopp, Q2.
    + now rewrite P1, B2R_Bopp, Q1.
  - left. apply B2SF_inj. rewrite P. rewrite B2SF_Bopp, Q. rewrite Bsign_Bopp by reflexivity. cbn. now destruct s, s'.
Qed.
Lemma opp_mul_r (x y : F) : same_number (o_mul x (o_neg y)) (o_neg (o_mul x y)).
Proof.
  destruct x as [s|s| |s m e B], y as [s'|s'| |s' m' e' B']; sgn s s'.
  change (same_number (Bmult mode_NE (B754_finite s m e B) (Bopp (B754_finite s' m' e' B'))) (Bopp (Bmult mode_NE (B754_finite s m e B) (B754_finite s' m' e' B')))).
  set (x := B754_finite s m e B) in *. set (y := B754_finite s' m' e' B').
  pose proof (Bmult_correct prec emax Hp He mode_NE x (Bopp y)) as P. pose proof (Bmult_correct prec emax Hp He mode_NE x y) as Q.
  rewrite B2R_Bopp, <- Ropp_mult_distr_r, round_NE_opp, Rabs_Ropp in P.
  destruct (Rlt_bool _ _).
  - destruct P as (P1 & P2 & _), Q as (Q1 & Q2 & _). apply same_real.
    + now rewrite P2.
    + now rewrite is_finite_Bopp, Q2.
    + now rewrite P1, B2R_Bopp, Q1.
  - left. apply B2SF_inj. rewrite P. rewrite B2SF_Bopp, Q. rewrite Bsign_Bopp by reflexivity. cbn. now destruct s, s'.
Qed.
Lemma opp_add (x y : F) : same_number (o_add (o_neg x) (o_neg y)) (o_neg (o_add x y)).
Proof.
  destruct (is_finite x) eqn:Fx, (is_finite y) eqn:Fy.
  2-4: destruct x as [s|s| |s m e B], y as [s'|s'| |s' m' e' B']; try discriminate; sgn s s'.
  change (same_number (Bplus mode_NE (Bopp x) (Bopp y)) (Bopp (Bplus mode_NE x y))).
  pose proof (Bplus_correct prec emax Hp He mode_NE (Bopp x) (Bopp y)) as P. pose proof (Bplus_correct prec emax Hp He mode_NE x y Fx Fy) as Q.
  rewrite !is_finite_Bopp in P. specialize (P Fx Fy). rewrite !B2R_Bopp, <- Ropp_plus_distr, round_NE_opp, Rabs_Ropp in P.
  destruct (Rlt_bool _ _).
  - destruct P as (P1 & P2 & _), Q as (Q1 & Q2 & _). apply same_real.
    + exact P2.
    + now rewrite is_finite_Bopp.
    + now rewrite P1, B2R_Bopp, Q1.
  - left. destruct P as (P & _), Q as (Q & _). apply B2SF_inj. rewrite P. rewrite B2SF_Bopp, Q. rewrite Bsign_Bopp by (destruct x; try discriminate; reflexivity). cbn. now destruct (Bsign x).
Qed.
Lemma opp_sub (x y : F) : same_number (o_sub (o_neg x) (o_neg y)) (o_neg (o_sub x y)).
Proof.
  destruct (is_finite x) eqn:Fx, (is_finite y) eqn:Fy.
  2-4: destruct x as [s|s| |s m e B], y as [s'|s'| |s' m' e' B']; try discriminate; sgn s s'.
  change (same_number (Bminus mode_NE (Bopp x) (Bopp y)) (Bopp (Bminus mode_NE x y))).
  pose proof (Bminus_correct prec emax Hp He mode_NE (Bopp x) (Bopp y)) as P. pose proof (Bminus_correct prec emax Hp He mode_NE x y Fx Fy) as Q.
  rewrite !is_finite_Bopp in P. specialize (P Fx Fy). rewrite !B2R_Bopp in P. replace (- B2R x - - B2R y) with (- (B2R x - B2R y)) in P by ring. rewrite round_NE_opp, Rabs_Ropp in P.
  destruct (Rlt_bool _ _).
  - destruct P as (P1 & P2 & _), Q as (Q1 & Q2 & _). apply same_real.
    + exact P2.
    + now rewrite is_finite_Bopp.
    + now rewrite P1, B2R_Bopp, Q1.
  - left. destruct P as (P & _), Q as (Q & _). apply B2SF_inj. rewrite P. rewrite B2SF_Bopp, Q. rewrite Bsign_Bopp by (destruct x; try discriminate; reflexivity). cbn. now destruct (Bsign x).
Qed.
Lemma rel_refl x : rel false x x. Proof. apply same_refl. Qed.
Lemma rel_add b (x x' y y' : F) : rel b x x' -> rel b y y' -> rel b (o_add x y) (o_add x' y').
Proof.
  unfold rel. intros A B. eapply same_trans; [apply same_add; eassumption|]. destruct b; [apply opp_add|apply same_refl].
Qed.
Lemma rel_sub b (x x' y y' : F) : rel b x x' -> rel b y y' -> rel b (o_sub x y) (o_sub x' y').
Proof.
  unfold rel. intros A B. eapply same_trans; [apply same_sub; eassumption|]. destruct b; [apply opp_sub|apply same_refl].
Qed.
Lemma rel_mul b b' (x x' y y' : F) : rel b x x' -> rel b' y y' -> rel (xorb b b') (o_mul x y) (o_mul x' y').
Proof.
  unfold rel. intros A B. eapply same_trans; [apply same_mul; eassumption|]. destruct b, b'; cbn [xorb].
  - eapply same_trans; [apply opp_mul|]. eapply same_trans; [apply same_neg, opp_mul_r|]. rewrite neg_neg. apply same_refl.
  - apply opp_mul.
  - apply opp_mul_r.
  - apply same_refl.
Qed.
Lemma rel_neg b x x' : rel b x x' -> rel b (o_neg x) (o_neg x').
Proof. unfold rel. destruct b; apply same_neg. Qed.
Lemma rel_mul_bb b (x x' y y' : F) : rel b x x' -> rel b y y' -> rel false (o_mul x y) (o_mul x' y').
Proof. intros A B. pose proof (rel_mul _ _ _ _ _ _ A B) as C. now rewrite xorb_nilpotent in C. Qed.
Lemma rel_mul_bf b (x x' y y' : F) : rel b x x' -> rel false y y' -> rel b (o_mul x y) (o_mul x' y').
Proof. intros A B. pose proof (rel_mul _ _ _ _ _ _ A B) as C. now rewrite xorb_false_r in C. Qed.
Lemma rel_mul_fb b (x x' y y' : F) : rel false x x' -> rel b y y' -> rel b (o_mul x y) (o_mul x' y').
Proof. intros A B. pose proof (rel_mul _ _ _ _ _ _ A B) as C. now rewrite xorb_false_l in C. Qed.
Definition relv b (a a' : V3 F) := rel b (vx a) (vx a') /\ rel b (vy a) (vy a') /\ rel b (vz a) (vz a').
Definition relq b (a a' : Quat F) := rel b (qi a) (qi a') /\ rel b (qj a) (qj a') /\ rel b (qk a) (qk a') /\ rel b (qw a) (qw a').
Definition relm (a a' : M33 F) := rel false (m00 a) (m00 a') /\ rel false (m01 a) (m01 a') /\ rel false (m02 a) (m02 a') /\
  rel false (m10 a) (m10 a') /\ rel false (m11 a) (m11 a') /\ rel false (m12 a) (m12 a') /\
  rel false (m20 a) (m20 a') /\ rel false (m21 a) (m21 a') /\ rel false (m22 a) (m22 a').

Lemma relv_cross b b' a a' c c' : relv b a a' -> relv b' c c' -> relv (xorb b b') (v3_cross a c) (v3_cross a' c').
Proof. intros (A1 & A2 & A3) (B1 & B2 & B3). repeat split; cbn [v3_cross vx vy vz]; apply rel_sub; now apply rel_mul. Qed.
Lemma relv_add b a a' c c' : relv b a a' -> relv b c c' -> relv b (v3_add a c) (v3_add a' c').
Proof. intros (A1 & A2 & A3) (B1 & B2 & B3). repeat split; cbn [v3_add vx vy vz]; now apply rel_add. Qed.
Lemma relv_neg b a a' : relv b a a' -> relv b (v3_neg a) (v3_neg a').
Proof. intros (A1 & A2 & A3). repeat split; cbn [v3_neg vx vy vz]; now apply rel_neg. Qed.
Lemma relv_scale b b' a a' s s' : relv b a a' -> rel b' s s' -> relv (xorb b b') (v3_scale a s) (v3_scale a' s').
Proof. intros (A1 & A2 & A3) S. repeat split; cbn [v3_scale vx vy vz]; now apply rel_mul. Qed.
Lemma relq_inverse b q q' : relq b q q' -> relq b (q_inverse q) (q_inverse q').
Proof. intros (A1 & A2 & A3 & A4). repeat split; cbn [q_inverse qi qj qk qw]; try apply rel_neg; assumption. Qed.
Lemma rel_rotate b q q' p p' : relq b q q' -> relv false p p' -> relv false (q_rotate q p) (q_rotate q' p').
Proof.
  intros (A1 & A2 & A3 & A4) P. assert (V : relv b (q_vec q) (q_vec q')) by (repeat split; assumption).
  assert (T : relv b (v3_scale (v3_cross (q_vec q) p) o_two) (v3_scale (v3_cross (q_vec q') p') o_two)).
  { pose proof (relv_scale _ _ _ _ _ _ (relv_cross _ _ _ _ _ _ V P) (rel_refl o_two)) as T. now rewrite !xorb_false_r in T. }
  unfold q_rotate. cbv zeta. apply relv_add; [apply relv_add|exact P].
  - pose proof (relv_scale _ _ _ _ _ _ T A4) as Q. now rewrite xorb_nilpotent in Q.
  - pose proof (relv_cross _ _ _ _ _ _ V T) as Q. now rewrite xorb_nilpotent in Q.
Qed.
Lemma rel_rotmat b q q' : relq b q q' -> relm (q_to_rotation_matrix q) (q_to_rotation_matrix q').
Proof.
  intros (A1 & A2 & A3 & A4). pose proof (rel_refl o_two) as T.
  repeat split; cbn [q_to_rotation_matrix m00 m01 m02 m10 m11 m12 m20 m21 m22];
  repeat first [apply rel_add|apply rel_sub|apply (rel_mul_bf false); [|exact T]]; apply (rel_mul_bb b); assumption.
Qed.
Lemma rel_mulv m m' a a' : relm m m' -> relv false a a' -> relv false (m33_mulv m a) (m33_mulv m' a').
Proof.
  intros (B1 & B2 & B3 & B4 & B5 & B6 & B7 & B8 & B9) (A1 & A2 & A3).
  repeat split; cbn [m33_mulv vx vy vz]; repeat apply rel_add; apply (rel_mul_bb false); assumption.
Qed.
Local Notation frc := from_rotation_and_camcenter.
Lemma rel_trans b q q' c c' : relq b q q' -> relv false c c' -> relv false (v3_neg (m33_mulv (q_to_rotation_matrix q) c)) (v3_neg (m33_mulv (q_to_rotation_matrix q') c')).
Proof. intros Q C. apply relv_neg, rel_mulv; [now apply (rel_rotmat b)|exact C]. Qed.

(** from == to rel *)
Lemma eq_coords (a b : Quat F) : quat_eqb a b = true -> exists f, relq f a b.
Proof.
  unfold quat_eqb, coords_eqb. rewrite orb_true_iff, !andb_true_iff. intros [(((H1 & H2) & H3) & H4)|(((H1 & H2) & H3) & H4)];
    apply feqb_iff in H1, H2, H3, H4; [exists false|exists true]; repeat split; cbn [rel]; first [apply H1|apply H2|apply H3|apply H4].
Qed.
Lemma eq_v3 (a b : V3 F) : v3_eqb a b = true -> relv false a b.
Proof. unfold v3_eqb. rewrite !andb_true_iff. intros ((H1 & H2) & H3). apply feqb_iff in H1, H2, H3. repeat split; cbn [rel]; first [apply H1|apply H2|apply H3]. Qed.

Lemma C93_lemma (q q' : Quat F) (c c' : V3 F) pts : extrinsics_eqb (frc q c) (frc q' c') = true ->
  (exists out out', world_to_camera (frc q c) (mkPoints pts) = Some (mkPoints out) /\ world_to_camera (frc q' c') (mkPoints pts) = Some (mkPoints out') /\
     Forall2 same_vec out out') /\
  (exists out out', camera_to_world (frc q c) (mkPoints pts) = Some (mkPoints out) /\ camera_to_world (frc q' c') (mkPoints pts) = Some (mkPoints out') /\
     Forall2 same_vec out out').
Proof.
  unfold extrinsics_eqb. rewrite !andb_true_iff. intros ((Q & C) & _).
  apply eq_coords in Q. destruct Q as (b & Q). apply eq_v3 in C. cbn [frc e_rquat e_camcenter] in Q, C.
  assert (S : forall a a', relv false a a' -> same_vec a a') by (intros a a' H; exact H).
  assert (G : forall p p' : Iso F, (forall x, relv false (iso_transform_point p x) (iso_transform_point p' x)) ->
    Forall2 same_vec (map (iso_transform_point p) pts) (map (iso_transform_point p') pts)).
  { intros p p' H. clear - H S. induction pts as [|a l IH]; cbn [map]; constructor; auto. }
  split; eexists; eexists; (split; [|split]).
  1,2: rewrite world_to_camera_rows; reflexivity.
  2,3: rewrite camera_to_world_rows; reflexivity.
  - apply G. intros x. cbn [frc e_cache c_pose]. unfold iso_transform_point. cbn [iso_rot iso_trans]. apply relv_add.
    + apply (rel_rotate b); [exact Q|]. repeat split; apply rel_refl.
    + now apply (rel_trans b).
  - apply G. intros x. cbn [frc e_cache c_pose_inv]. unfold iso_transform_point, iso_inverse. cbn [iso_rot iso_trans]. apply relv_add.
    + apply (rel_rotate b); [now apply relq_inverse|]. repeat split; apply rel_refl.
    + apply (rel_rotate b); [now apply relq_inverse|]. now apply relv_neg, (rel_trans b).
Qed.
Lemma rel_eqb (x y : F) : is_nan x = false -> rel false x y -> o_eqb x y = true.
Proof. intros N H. apply feqb_iff. now split. Qed.
Lemma relv_eqb (x y : V3 F) : Forall (fun t => is_nan t = false) (v3_numbers x) -> relv false x y -> v3_eqb x y = true.
Proof.
  unfold v3_numbers. intros N (H1 & H2 & H3). repeat match goal with H : Forall _ (_ :: _) |- _ => inversion H; clear H; subst end.
  unfold v3_eqb. rewrite !rel_eqb; auto.
Qed.
Lemma relq_eqb b (x y : Quat F) : Forall (fun t => is_nan t = false) (quat_numbers x) -> relq b x y -> quat_eqb x y = true.
Proof.
  unfold quat_numbers. intros N (H1 & H2 & H3 & H4). repeat match goal with H : Forall _ (_ :: _) |- _ => inversion H; clear H; subst end.
  unfold quat_eqb, coords_eqb. destruct b; [apply orb_true_intro; right|apply orb_true_intro; left]; cbn [q_neg qi qj qk qw]; rewrite !rel_eqb; auto.
Qed.
Lemma relm_eqb (x y : M33 F) : Forall (fun t => is_nan t = false) (m33_numbers x) -> relm x y -> m33_eqb x y = true.
Proof.
  unfold m33_numbers. intros N (B1 & B2 & B3 & B4 & B5 & B6 & B7 & B8 & B9). repeat match goal with H : Forall _ (_ :: _) |- _ => inversion H; clear H; subst end.
  unfold m33_eqb. rewrite !rel_eqb; auto.
Qed.
Lemma relm_tr (x y : M33 F) : relm x y -> relm (m33_transpose x) (m33_transpose y).
Proof. intros (B1 & B2 & B3 & B4 & B5 & B6 & B7 & B8 & B9). repeat split; assumption. Qed.

Lemma C93_iff_lemma (q q' : Quat F) (c c' : V3 F) :
  extrinsics_eqb (frc q c) (frc q' c') = true <->
  (same_quat q q' \/ same_quat q (q_neg q')) /\ same_vec c c' /\ Forall (fun x => is_nan x = false) (extrinsics_numbers (frc q c)).
Proof.
  split.
  - intros H. split; [|split].
    + pose proof H as H0. unfold extrinsics_eqb in H0. rewrite !andb_true_iff in H0. destruct H0 as ((Q & _) & _). apply eq_coords in Q.
      destruct Q as ([|] & Q); [right|left]; exact Q.
    + pose proof H as H0. unfold extrinsics_eqb in H0. rewrite !andb_true_iff in H0. destruct H0 as ((_ & Q) & _). apply eq_v3 in Q. exact Q.
    + apply (proj1 (proj1 C92b_lemma _)). destruct (proj1 C92_lemma) as (Sy & Tr). eapply Tr; [exact H|]. now apply Sy.
  - intros (Q & C & N).
    assert (QQ : exists b, relq b q q') by (destruct Q as [Q|Q]; [exists false|exists true]; exact Q). destruct QQ as (b & QQ).
    assert (CC : relv false c c') by exact C. clear Q C.
    unfold extrinsics_numbers in N. cbv zeta in N. rewrite !Forall_app_iff in N. unfold iso_numbers in N. rewrite !Forall_app_iff in N.
    destruct N as (N1 & N2 & N3 & N4 & N5 & N6 & N7 & (N8 & N9) & N10 & N11).
    pose proof (rel_rotmat _ _ _ QQ) as M. pose proof (rel_trans _ _ _ _ _ QQ CC) as Tr.
    unfold extrinsics_eqb, cache_eqb, iso_eqb. rewrite !andb_true_iff. repeat split.
    1: now apply (relq_eqb b).
    1: now apply relv_eqb.
    1: now apply relm_eqb.
    1: now apply relv_eqb.
    1:{ clear N1 N2 N3 N4 N6 N7 N8 N9 N10 N11. destruct M as (B1 & B2 & B3 & B4 & B5 & B6 & B7 & B8 & B9), Tr as (T1 & T2 & T3).
        unfold m34_numbers in N5. repeat match goal with H : Forall _ (_ :: _) |- _ => inversion H; clear H; subst end.
        unfold m34_eqb. rewrite !rel_eqb; auto. }
    1: apply relm_eqb; [exact N6|now apply relm_tr].
    1:{ apply relv_eqb; [exact N7|]. destruct CC as (C1 & C2 & C3). repeat split; [exact C1|exact C2|apply rel_refl]. }
    1: now apply relv_eqb.
    1: now apply (relq_eqb b).
    1:{ apply relv_eqb; [exact N11|]. apply (rel_rotate b); [now apply relq_inverse|]. now apply relv_neg. }
    apply (relq_eqb b); [exact N10|]. now apply relq_inverse.
Qed.

(** *** pixels *)
Lemma same_div (x x' y y' : F) : same_number x x' -> same_number y y' -> ~ (exists s, y = B754_zero s) -> same_number (o_div x y) (o_div x' y').
Proof.
  intros A B N. assert (y = y') as <- by (destruct B as [B|(s & t & B & _)]; [exact B|destruct N; now exists s]).
  destruct A as [->|(s & t & -> & ->)]; [apply same_refl|].
  destruct y as [r|r| |r m e B']; try (left; reflexivity); right; cbn; eauto.
Qed.
Lemma finite_strict_nz (x : F) : is_finite_strict x = true -> B2R x <> 0.
Proof. destruct x as [s|s| |s m e B]; try discriminate. intros _ E. cbn in E. apply eq_0_F2R in E. destruct s; discriminate. Qed.
Lemma one_mul (z : F) : same_number (o_mul o_one z) z.
Proof.
  change (same_number (Bmult mode_NE Bone z) z).
  destruct (is_finite z) eqn:Fz.
  - pose proof (Bmult_correct prec emax Hp He mode_NE Bone z) as P. rewrite Bone_correct, Rmult_1_l in P.
    rewrite round_generic in P; [|auto with typeclass_instances|apply generic_format_B2R].
    rewrite Rlt_bool_true in P by apply abs_B2R_lt_emax. destruct P as (P1 & P2 & _). apply same_real; [|exact Fz|exact P1].
    rewrite P2, Fz. now rewrite is_finite_Bone.
  - pose proof (Bone_correct prec emax Hp He) as B1. pose proof (Bsign_Bone prec emax Hp He) as S1.
    destruct (Bone : F) as [s|s| |s m e B]; cbn in B1; try lra. cbn in S1. subst s. destruct z as [t|t| |t m' e' B']; try discriminate; left; [now destruct t|reflexivity].
Qed.
Definition zorn (x : F) := (exists s, x = B754_zero s) \/ x = B754_nan.
Lemma zorn_mul (x : F) : zorn (o_mul o_zero x).
Proof. destruct x as [s|s| |s m e B]; [left|right|right|left]; cbn; eauto. Qed.
Lemma zorn_add (x y : F) : zorn x -> zorn y -> zorn (o_add x y).
Proof. intros [(s & ->)| ->] [(t & ->)| ->]; [|right; reflexivity..]. left. destruct s, t; cbn; eauto. Qed.
Lemma add_zorn_l (x z : F) : zorn x -> same_number (o_add x z) z \/ o_add x z = B754_nan.
Proof. intros [(s & ->)| ->]; [left|right; reflexivity]. destruct z as [t|t| |t m e B]; try (left; reflexivity). right. destruct s, t; cbn; eauto. Qed.
Lemma add_zorn_r (x z : F) : zorn x -> same_number (o_add z x) z \/ o_add z x = B754_nan.
Proof. intros [(s & ->)| ->]; [left|right; now destruct z]. destruct z as [t|t| |t m e B]; try (left; reflexivity). right. destruct s, t; cbn; eauto. Qed.
Lemma third (x y z : F) : let w := (o_zero * x + o_zero * y + o_one * z + o_zero * o_one)%S in same_number w z \/ w = B754_nan.
Proof.
  cbv zeta. set (a := (o_zero * x + o_zero * y)%S). assert (A : zorn a) by (apply zorn_add; apply zorn_mul).
  destruct (add_zorn_r (o_mul o_zero o_one) (o_add a (o_mul o_one z)) (zorn_mul _)) as [H|H]; [|right; exact H].
  destruct (add_zorn_l a (o_mul o_one z) A) as [K|K].
  - left. eapply same_trans; [exact H|]. eapply same_trans; [exact K|]. apply one_mul.
  - rewrite K in H. right. destruct H as [H|(s & t & _ & E)]; [rewrite K; exact H|discriminate].
Qed.

Lemma third_row (k : PerspectiveParams F) (y : V3 F) : let w := vz (m34_mulv (ip_cache_p (perspective_from k)) (v3_to_homogeneous y)) in
  same_number w (vz y) \/ w = B754_nan.
Proof. exact (third (vx y) (vy y) (vz y)). Qed.
Lemma rel_m34_mulv (m m' : M34 F) (p p' : V3 F) : m34_eqb m m' = true -> relv false p p' -> relv false (m34_mulv m (v3_to_homogeneous p)) (m34_mulv m' (v3_to_homogeneous p')).
Proof.
  unfold m34_eqb. rewrite !andb_true_iff. intros H (P1 & P2 & P3).
  repeat match goal with H : _ /\ _ |- _ => destruct H end.
  repeat match goal with H : o_eqb _ _ = true |- _ => apply feqb_iff in H; apply proj2 in H end.
  repeat split; cbn [m34_mulv v3_to_homogeneous vx vy vz wx wy wz ww]; repeat apply rel_add; apply (rel_mul_bb false);
    first [assumption|apply rel_refl].
Qed.

Lemma C94_lemma (k k' : PerspectiveParams F) (q q' : Quat F) (c c' : V3 F) x :
  camera_eqb perspective_eqb (camera_new (perspective_from k) (frc q c)) (camera_new (perspective_from k') (frc q' c')) = true ->
  exists y p p',
    world_to_camera (frc q c) (mkPoints [x]) = Some (mkPoints [y]) /\
    world_to_pixel (camera_new (perspective_from k) (frc q c)) (mkPoints [x]) = Some (mkPixels [p]) /\
    world_to_pixel (camera_new (perspective_from k') (frc q' c')) (mkPoints [x]) = Some (mkPixels [p']) /\
    ((exists s, vz y = B754_zero s) \/ same_number (px p) (px p') /\ same_number (py p) (py p')).
Proof.
  unfold camera_eqb. rewrite andb_true_iff. cbn [camera_new cam_intrinsics cam_extrinsics]. intros (K & E).
  unfold perspective_eqb in K. apply andb_true_iff in K. destruct K as (_ & K).
  unfold extrinsics_eqb in E. rewrite !andb_true_iff in E. destruct E as ((Q & C) & _).
  apply eq_coords in Q. destruct Q as (b & Q). apply eq_v3 in C. cbn [frc e_rquat e_camcenter] in Q, C.
  set (y := iso_transform_point (c_pose (e_cache (frc q c))) x).
  set (y' := iso_transform_point (c_pose (e_cache (frc q' c'))) x).
  assert (Y : relv false y y').
  { unfold y, y'. cbn [frc e_cache c_pose]. unfold iso_transform_point. cbn [iso_rot iso_trans]. apply relv_add.
    + apply (rel_rotate b); [exact Q|]. repeat split; apply rel_refl.
    + now apply (rel_trans b). }
  exists y. do 2 eexists. split; [rewrite world_to_camera_rows; reflexivity|].
  split; [unfold camera_new; rewrite persp_world_to_pixel_rows; reflexivity|]. split; [unfold camera_new; rewrite persp_world_to_pixel_rows; reflexivity|].
  fold y y'. unfold persp_project_row. cbv zeta.
  pose proof (rel_m34_mulv _ _ _ _ K Y) as (R1 & R2 & R3). cbn [px py].
  set (w := vz (m34_mulv (ip_cache_p (perspective_from k)) (v3_to_homogeneous y))) in *.
  pose proof (third_row k y) as W. fold w in W.
  assert (D : (exists s, w = B754_zero s) \/ ~ exists s, w = B754_zero s).
  { destruct w as [s|s| |s m e B]; [left; eauto|right; intros (t & H); discriminate..]. }
  destruct D as [(s & D)|D].
  - left. rewrite D in W. destruct W as [[W|(a & t & _ & W)]|W]; [exists s; now symmetry|exists t; exact W|discriminate].
  - right. split; apply same_div; auto.
Qed.
End IEEE.

(** ** Real arithmetic *)
Local Open Scope R_scope.
Lemma rotm_eq_quat q q' : unit_quat q -> unit_quat q' -> rotm q = rotm q' -> q = q' \/ q = qopp q'.
Proof.
  destruct q as [i j k w], q' as [i' j' k' w']. unfold unit_quat. ru_spec. intros U U' H.
  injection H as E1 E2 E3 E4 E5 E6 E7 E8 E9.
  assert (P1 : i * i = i' * i') by lra. assert (P2 : j * j = j' * j') by lra. assert (P3 : k * k = k' * k') by lra. assert (P4 : w * w = w' * w') by lra.
  assert (P5 : i * j = i' * j') by lra. assert (P6 : i * k = i' * k') by lra. assert (P7 : j * k = j' * k') by lra.
  assert (P8 : w * i = w' * i') by lra. assert (P9 : w * j = w' * j') by lra. assert (P10 : w * k = w' * k') by lra.
  set (d := i * i' + j * j' + k * k' + w * w').
  assert (D : d * d = 1).
  { replace (d * d) with ((i*i)*(i'*i') + (j*j)*(j'*j') + (k*k)*(k'*k') + (w*w)*(w'*w') + 2 * ((i*j)*(i'*j') + (i*k)*(i'*k') + (j*k)*(j'*k') + (w*i)*(w'*i') + (w*j)*(w'*j') + (w*k)*(w'*k'))) by (unfold d; ring).
    rewrite <- P1, <- P2, <- P3, <- P4, <- P5, <- P6, <- P7, <- P8, <- P9, <- P10.
    replace 1 with ((i*i+j*j+k*k+w*w)*(i*i+j*j+k*k+w*w)) by (replace (i*i+j*j+k*k+w*w) with 1 by lra; ring). ring. }
  assert (S : d = 1 \/ d = -1). { assert ((d - 1) * (d + 1) = 0) as Z by (ring_simplify; lra). apply Rmult_integral in Z. destruct Z; [left|right]; lra. }
  assert (Z4 : forall a b c e, a * a + b * b + c * c + e * e = 0 -> a = 0 /\ b = 0 /\ c = 0 /\ e = 0).
  { intros a b c e H. pose proof (Rle_0_sqr a). pose proof (Rle_0_sqr b). pose proof (Rle_0_sqr c). pose proof (Rle_0_sqr e). unfold Rsqr in *.
    repeat split; apply Rsqr_0_uniq; unfold Rsqr; lra. }
  destruct S as [S|S]; [left|right]; unfold d in S.
  - destruct (Z4 (i - i') (j - j') (k - k') (w - w')) as (A & B & C & E); [lra|]. f_equal; lra.
  - destruct (Z4 (i + i') (j + j') (k + k') (w + w')) as (A & B & C & E); [lra|]. unfold qopp. cbn. f_equal; lra.
Qed.
Lemma Reqb_iff x y : Reqb x y = true <-> x = y.
Proof. unfold Reqb. destruct (Req_EM_T x y); split; auto; discriminate. Qed.
Local Ltac reqb := rewrite ?andb_true_iff; change (@o_eqb R R_ops) with Reqb; rewrite ?Reqb_iff.
Lemma v3_eqb_R (a b : V3 R) : v3_eqb a b = true <-> a = b.
Proof. unfold v3_eqb. reqb. destruct a as [], b as []; cbn. split; [intros ((-> & ->) & ->); reflexivity|intros [= -> -> ->]; auto]. Qed.
Lemma m33_eqb_R (a b : M33 R) : m33_eqb a b = true <-> a = b.
Proof.
  unfold m33_eqb. reqb. destruct a as [], b as []; cbn. split; [|intros [= -> -> -> -> -> -> -> -> ->]; tauto].
  intros H. repeat match goal with H : _ /\ _ |- _ => destruct H end. now subst.
Qed.
Lemma m34_eqb_R (a b : M34 R) : m34_eqb a b = true <-> a = b.
Proof.
  unfold m34_eqb. reqb. destruct a as [], b as []; cbn. split; [|intros [= -> -> -> -> -> -> -> -> -> -> -> ->]; tauto].
  intros H. repeat match goal with H : _ /\ _ |- _ => destruct H end. now subst.
Qed.
Lemma coords_eqb_R (a b : Quat R) : coords_eqb a b = true <-> a = b.
Proof.
  unfold coords_eqb. reqb. destruct a as [], b as []; cbn. split; [|intros [= -> -> -> ->]; tauto].
  intros H. repeat match goal with H : _ /\ _ |- _ => destruct H end. now subst.
Qed.
Lemma quat_eqb_R (a b : Quat R) : quat_eqb a b = true <-> a = b \/ a = qopp b.
Proof. unfold quat_eqb. rewrite orb_true_iff, !coords_eqb_R. reflexivity. Qed.
Local Notation frc := from_rotation_and_camcenter.
Lemma frc_eqb_R (q q' : Quat R) (c c' : V3 R) : extrinsics_eqb (frc q c) (frc q' c') = true <-> (q = q' \/ q = qopp q') /\ c = c'.
Proof.
  unfold extrinsics_eqb, cache_eqb, iso_eqb. rewrite !andb_true_iff, !v3_eqb_R, !m33_eqb_R, m34_eqb_R, !quat_eqb_R. cbn [frc e_rquat e_camcenter e_cache c_q c_translation c_qt c_q_inv c_camcenter_z0 c_pose c_pose_inv iso_rot iso_trans iso_inverse].
  split; [tauto|]. intros ([->| ->] & ->); [tauto|].
  rewrite !rotmat_qopp, !q_inverse_qopp, !q_rotate_qopp. tauto.
Qed.
Lemma C93_real_lemma q q' c c' : unit_quat q -> unit_quat q' ->
  (extrinsics_eqb (frc q c) (frc q' c') = true <-> forall x, to_camera q c x = to_camera q' c' x).
Proof.
  intros U U'. rewrite frc_eqb_R. split.
  - intros ([->| ->] & ->) x; [reflexivity|]. unfold to_camera. now rewrite rotm_qopp.
  - intros H. unfold to_camera in H.
    assert (Ec : c = c').
    { pose proof (H c) as A. rewrite vsub_diag, mv_O in A. symmetry in A.
      assert (Z : vsub c c' = vO). { transitivity (mv mI (vsub c c')); [vring|]. destruct (rotm_orthogonal q' U') as (_ & O). first [rewrite <- O, mv_mm, A; apply mv_O|destruct (rotm_orthogonal q' U') as (O' & _); rewrite <- O', mv_mm, A; apply mv_O]. }
      destruct c as [], c' as []. unfold vsub, vO in Z. cbn in Z. apply V3_inv in Z. apply V3_eq; cbn; lra. }
    split; [|exact Ec]. subst c'. apply rotm_eq_quat; auto.
    assert (G : forall v, mv (rotm q) v = mv (rotm q') v). { intros v. specialize (H (vadd c v)). replace (vsub (vadd c v) c) with v in H by vring. exact H. }
    pose proof (G (mkV3 1 0 0)) as G1. pose proof (G (mkV3 0 1 0)) as G2. pose proof (G (mkV3 0 0 1)) as G3. clear -G1 G2 G3.
    apply V3_inv in G1, G2, G3. destruct (rotm q), (rotm q'). unfold mv in *. cbn in *. apply M33_eq; cbn; lra.
Qed.
