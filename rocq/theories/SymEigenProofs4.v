(** * SymEigenProofs4.v - nalgebra's 3x3 SVD over the reals: scaling, ordering of the columns *)

From Coq Require Import Reals List Arith Lra Lia Psatz.
From Verif Require Import Scalar Linalg Householder RayIntersection SymEigen Spec SpecIsect RealBase VecLemmas FromViewProofs QRProofs
  TriProofs SymEigenProofs SymEigenProofs2 SymEigenProofs3.
Import ListNotations.
Local Open Scope R_scope.

(** ** The largest entry *)
Lemma fold_amax l : forall x, 0 <= x -> let y := fold_left (fun mx e => let ae := Rabs e in if Rltb mx ae then ae else mx) l x in
  x <= y /\ (forall e, In e l -> Rabs e <= y) /\ (y = x \/ exists e, In e l /\ y = Rabs e).
Proof.
  induction l as [|a l IH]; intros x X; cbn [fold_left]; [split; [lra|]; split; [intros e []|left; reflexivity]|].
  cbv zeta. destruct (Rltb x (Rabs a)) eqn:E.
  - apply Rltb_true in E. destruct (IH (Rabs a) (Rabs_pos a)) as (I1 & I2 & I3). cbv zeta in I1, I2, I3. split; [lra|]. split.
    + intros e [<-|H]; [exact I1|now apply I2].
    + right. destruct I3 as [->|(e & H & ->)]; [exists a; split; [now left|reflexivity]|exists e; split; [now right|reflexivity]].
  - apply Rltb_false in E. destruct (IH x X) as (I1 & I2 & I3). cbv zeta in I1, I2, I3. split; [lra|]. split.
    + intros e [<-|H]; [lra|now apply I2].
    + destruct I3 as [H|(e & H & ->)]; [now left|right; exists e; split; [now right|reflexivity]].
Qed.
Lemma camax_spec m l : bnd m l -> 0 <= camax m /\ (camax m = 0 -> m = mkM33 0 0 0 0 0 0 0 0 0) /\ camax m <= Rmax l 0.
Proof.
  intros B. destruct m as [a b c d e f g h i].
  change (camax _) with (fold_left (fun mx e => let ae := Rabs e in if Rltb mx ae then ae else mx) [a; d; g; b; e; h; c; f; i] 0).
  destruct (fold_amax [a; d; g; b; e; h; c; f; i] 0 (Rle_refl 0)) as (I1 & I2 & I3). cbv zeta in I1, I2, I3.
  set (y := fold_left _ _ _) in *. clearbody y.
  split; [exact I1|]. split.
  - intros ->.
    assert (K : forall e', In e' [a; d; g; b; e; h; c; f; i] -> e' = 0).
    { intros e' H. specialize (I2 e' H). destruct (Req_dec e' 0) as [|N]; [assumption|]. pose proof (Rabs_pos_lt e' N). lra. }
    cbn [In] in K. f_equal; apply K; tauto.
  - destruct I3 as [->|(x & H & ->)]; [apply Rmax_r|]. apply Rle_trans with l; [|apply Rmax_l].
    assert (K : forall u v, vdot u u = 1 -> vdot v v = 1 -> Rabs (vdot u (mv (mkM33 a b c d e f g h i) v)) <= l).
    { intros u v U V. pose proof (cauchy u (mv (mkM33 a b c d e f g h i) v)) as C. specialize (B v).
      rewrite (vlen_1 u U), (vlen_1 v V) in *. lra. }
    set (e0 := mkV3 1 0 0 : V3 R). set (e1 := mkV3 0 1 0 : V3 R). set (e2 := mkV3 0 0 1 : V3 R).
    assert (U0 : vdot e0 e0 = 1) by (unfold e0; vring). assert (U1 : vdot e1 e1 = 1) by (unfold e1; vring). assert (U2 : vdot e2 e2 = 1) by (unfold e2; vring).
    assert (KK : Rabs a <= l /\ Rabs d <= l /\ Rabs g <= l /\ Rabs b <= l /\ Rabs e <= l /\ Rabs h <= l /\ Rabs c <= l /\ Rabs f <= l /\ Rabs i <= l).
    { repeat split.
      - eapply Rle_trans; [right|exact (K e0 e0 U0 U0)]. f_equal. unfold e0. ru_spec. ring.
      - eapply Rle_trans; [right|exact (K e1 e0 U1 U0)]. f_equal. unfold e0, e1. ru_spec. ring.
      - eapply Rle_trans; [right|exact (K e2 e0 U2 U0)]. f_equal. unfold e0, e2. ru_spec. ring.
      - eapply Rle_trans; [right|exact (K e0 e1 U0 U1)]. f_equal. unfold e0, e1. ru_spec. ring.
      - eapply Rle_trans; [right|exact (K e1 e1 U1 U1)]. f_equal. unfold e1. ru_spec. ring.
      - eapply Rle_trans; [right|exact (K e2 e1 U2 U1)]. f_equal. unfold e1, e2. ru_spec. ring.
      - eapply Rle_trans; [right|exact (K e0 e2 U0 U2)]. f_equal. unfold e0, e2. ru_spec. ring.
      - eapply Rle_trans; [right|exact (K e1 e2 U1 U2)]. f_equal. unfold e1, e2. ru_spec. ring.
      - eapply Rle_trans; [right|exact (K e2 e2 U2 U2)]. f_equal. unfold e2. ru_spec. ring. }
    destruct KK as (K0 & K1 & K2 & K3 & K4 & K5 & K6 & K7 & K8).
    cbn [In] in H. repeat (destruct H as [<-|H]; [assumption|]). destruct H.
Qed.

(** ** Scaling *)
Lemma unscale_R m s : m33_unscale m s = mscl (/ s) m.
Proof. destruct m. cbv -[Rmult Rdiv Rinv]. f_equal; unfold Rdiv; ring. Qed.
Lemma appr_mscl a b s e : 0 <= s -> appr a b e -> appr (mscl s a) (mscl s b) (s * e).
Proof.
  intros S A v. specialize (A v). unfold vdist in *. rewrite !mv_mscl, <- vscl_vsub, vlen_vscl, Rabs_pos_eq by exact S. nra.
Qed.
Lemma sim_mscl q s t : sim q (mscl s t) = mscl s (sim q t).
Proof. unfold sim. now rewrite mm_mscl_r, mm_mscl_l. Qed.
Lemma solved_mscl s m q b : 0 <= s -> solved m q b -> solved (mscl s m) q (s * b).
Proof.
  intros S (Oq & l & A). split; [exact Oq|]. exists (vscl s l). apply (appr_mscl _ _ s _ S) in A. rewrite <- sim_mscl in A.
  replace (tri (vscl s l) (mkV2 0 0)) with (mscl s (tri l (mkV2 0 0))); [exact A|]. destruct l. unfold tri. apply M33_eq; ru_spec; ring.
Qed.
Lemma bnd_mscl s m l : 0 <= s -> bnd m l -> bnd (mscl s m) (s * l).
Proof. intros S B v. specialize (B v). rewrite mv_mscl, vlen_vscl, Rabs_pos_eq by exact S. nra. Qed.

Lemma symmetric_eigen_spec m l eps n : mtr m = m -> 0 <= eps -> 0 <= l -> bnd m l ->
  exists r, symmetric_eigen m eps n = Some r /\ forall vals v, r = Some (vals, v) -> solved m v (4 * eps * l).
Proof.
  intros Sy E0 L0 B. destruct (camax_spec m l B) as (A0 & AZ & AL). rewrite Rmax_left in AL by exact L0.
  unfold symmetric_eigen. cbn [o_eqb o_zero R_ops]. set (a := camax m) in *. destruct (Reqb a 0) eqn:EA; cbn [negb].
  - apply Reqb_true in EA. specialize (AZ EA). clear A0 AL. clearbody a. clear EA.
    destruct (tridiagonalize_spec m Sy) as (q & d & o & -> & Oq & Q).
    assert (B1 : bnd m 1).
    { intros v. rewrite AZ. replace (mv _ v) with vO by (destruct v; vring). rewrite vlen_O. pose proof (vlen_nonneg v). lra. }
    destruct (inv_2 m 1 eps d o q E0 Oq Q B1) as (start & fin & o' & -> & I). cbn [bind].
    destruct (loop_spec m 1 eps E0 (Rle_refl 1) B1 n start fin d o' q I) as (r & -> & H). cbn [bind].
    destruct r as [(d', q')|]; [|eexists; split; [reflexivity|discriminate]].
    eexists. split; [reflexivity|]. intros vals v HV. injection HV as _ <-. destruct (H _ _ eq_refl) as (Oq' & _).
    split; [exact Oq'|]. exists vO. apply (appr_le _ _ 0); [nra|]. rewrite AZ.
    replace (sim q' (tri vO (mkV2 0 0))) with (mkM33 0 0 0 0 0 0 0 0 0 : M33 R); [apply appr_refl|].
    unfold sim, tri. destruct q'. apply M33_eq; ru_spec; ring.
  - assert (AP : 0 < a).
    { destruct (Req_dec a 0) as [Z|Z]; [|lra]. apply Reqb_true in Z. congruence. }
    rewrite unscale_R. set (m' := mscl (/ a) m).
    assert (Mm : m = mscl a m') by (unfold m'; rewrite mscl_mscl, Rinv_r, mscl_1 by lra; reflexivity).
    assert (Ia : 0 < / a) by now apply Rinv_0_lt_compat.
    assert (Sy' : mtr m' = m').
    { unfold m'. rewrite <- Sy at 2. generalize (/ a). intros s. destruct m. vring. }
    assert (B' : bnd m' (/ a * l)) by (apply bnd_mscl; [lra|exact B]).
    assert (L1 : 1 <= / a * l) by (apply (Rmult_le_reg_l a); [exact AP|]; rewrite <- Rmult_assoc, Rinv_r by lra; lra).
    destruct (tridiagonalize_spec m' Sy') as (q & d & o & -> & Oq & Q).
    destruct (inv_2 m' (/ a * l) eps d o q E0 Oq Q B') as (start & fin & o' & -> & I). cbn [bind].
    destruct (loop_spec m' (/ a * l) eps E0 L1 B' n start fin d o' q I) as (r & -> & H). cbn [bind].
    destruct r as [(d', q')|]; [|eexists; split; [reflexivity|discriminate]].
    eexists. split; [reflexivity|]. intros vals v HV. injection HV as _ <-. specialize (H _ _ eq_refl).
    apply (solved_mscl a) in H; [|lra]. rewrite <- Mm in H.
    replace (a * (4 * eps * (/ a * l))) with (4 * eps * l) in H by (field; lra). exact H.
Qed.
