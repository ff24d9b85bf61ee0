(** * SymEigenProofs3.v - nalgebra's 3x3 SVD over the reals: the eigenvectors found *)

From Coq Require Import Reals List Arith Lra Lia Psatz.
From Verif Require Import Scalar Linalg Householder RayIntersection SymEigen Spec SpecIsect RealBase VecLemmas FromViewProofs QRProofs
  TriProofs SymEigenProofs SymEigenProofs2.
Import ListNotations.
Local Open Scope R_scope.

(** ** Negligible entries *)
Definition neg0 (d : V3 R) (o : V2 R) (eps : R) : Prop := Rabs (px o) <= eps * (Rabs (vy d) + Rabs (vx d)).
Definition neg1 (d : V3 R) (o : V2 R) (eps : R) : Prop := Rabs (py o) <= eps * (Rabs (vz d) + Rabs (vy d)).
Lemma coupling_0 d o eps : coupling d o eps 0 = Some (Rabs (px o), eps * (Rabs (vy d) + Rabs (vx d))).
Proof. reflexivity. Qed.
Lemma coupling_1 d o eps : coupling d o eps 1 = Some (Rabs (py o), eps * (Rabs (vz d) + Rabs (vy d))).
Proof. reflexivity. Qed.
Lemma delimit_0 d o eps : delimit_subproblem d o 0 eps = Some (0%nat, 0%nat, o).
Proof. reflexivity. Qed.
Lemma delimit_1 d o eps : delimit_subproblem d o 1 eps = Some (0%nat, 1%nat, o) \/
  (delimit_subproblem d o 1 eps = Some (0%nat, 0%nat, o) /\ neg0 d o eps).
Proof.
  unfold delimit_subproblem. cbn [delimit_end]. rewrite coupling_0. cbn [bind fst snd o_ltb R_ops].
  destruct (Rltb _ _) eqn:E; cbn [bind delimit_start fst snd]; [left; reflexivity|right].
  apply Rltb_false in E. split; [reflexivity|unfold neg0; lra].
Qed.
Lemma delimit_2 d o eps : 0 <= eps ->
  delimit_subproblem d o 2 eps = Some (0%nat, 2%nat, o) \/
  (delimit_subproblem d o 2 eps = Some (1%nat, 2%nat, mkV2 0 (py o)) /\ neg0 d o eps) \/
  (delimit_subproblem d o 2 eps = Some (0%nat, 1%nat, o) /\ neg1 d o eps) \/
  (delimit_subproblem d o 2 eps = Some (0%nat, 0%nat, o) /\ neg0 d o eps /\ neg1 d o eps).
Proof.
  intros E0. unfold delimit_subproblem. cbn [delimit_end]. rewrite coupling_1, coupling_0. cbn [bind fst snd o_ltb R_ops].
  destruct (Rltb _ (Rabs (py o))) eqn:E1.
  - cbn [bind delimit_start fst snd]. rewrite coupling_0. cbn [v2_get v2_set bind fst snd o_eqb o_leb o_zero R_ops].
    destruct (orb _ _) eqn:E2; cbn [bind fst snd]; [|left; reflexivity]. right. left. split; [reflexivity|].
    unfold neg0. apply Bool.orb_true_iff in E2. destruct E2 as [E2|E2].
    + apply Reqb_true in E2. rewrite E2, Rabs_R0. pose proof (Rabs_pos (vy d)). pose proof (Rabs_pos (vx d)). nra.
    + now apply Rleb_true in E2.
  - apply Rltb_false in E1. assert (N1 : neg1 d o eps) by (unfold neg1; lra).
    destruct (Rltb _ (Rabs (px o))) eqn:E2; cbn [bind delimit_start fst snd].
    + right. right. left. split; [reflexivity|exact N1].
    + apply Rltb_false in E2. right. right. right. split; [reflexivity|]. split; [unfold neg0; lra|exact N1].
Qed.

(** ** The loop *)
Definition solved (s : M33 R) (q : M33 R) (b : R) : Prop := orthogonal q /\ exists l, appr s (sim q (tri l (mkV2 0 0))) b.
Definition inv (s : M33 R) (l eps : R) (start fin : nat) (d : V3 R) (o : V2 R) (q : M33 R) : Prop :=
  orthogonal q /\
  ((start = 0%nat /\ fin = 2%nat /\ s = sim q (tri d o)) \/
   (start = 1%nat /\ fin = 2%nat /\ px o = 0 /\ appr s (sim q (tri d (mkV2 0 (py o)))) (2 * eps * l)) \/
   (start = 0%nat /\ fin = 1%nat /\ appr s (sim q (tri d (mkV2 (px o) 0))) (2 * eps * l)) \/
   (start = 0%nat /\ fin = 0%nat /\ solved s q (4 * eps * l))).
Lemma drop0 s l eps d o q : 0 <= eps -> orthogonal q -> s = sim q (tri d o) -> bnd s l -> neg0 d o eps ->
  appr s (sim q (tri d (mkV2 0 (py o)))) (2 * eps * l).
Proof.
  intros E0 Oq S B N. destruct (bnd_diag d o l (bnd_sim s q _ l Oq S B)) as (B0 & B1 & B2).
  rewrite S. apply appr_sim; [exact Oq|]. destruct o as [a b]. cbn [px py] in *. eapply appr_le; [|apply appr_off0].
  rewrite Rminus_0_r. unfold neg0 in N. cbn [px] in N. nra.
Qed.
Lemma drop1 s l eps d o q : 0 <= eps -> orthogonal q -> s = sim q (tri d o) -> bnd s l -> neg1 d o eps ->
  appr s (sim q (tri d (mkV2 (px o) 0))) (2 * eps * l).
Proof.
  intros E0 Oq S B N. destruct (bnd_diag d o l (bnd_sim s q _ l Oq S B)) as (B0 & B1 & B2).
  rewrite S. apply appr_sim; [exact Oq|]. destruct o as [a b]. cbn [px py] in *. eapply appr_le; [|apply appr_off1].
  rewrite Rminus_0_r. unfold neg1 in N. cbn [py] in N. nra.
Qed.
Lemma drop01 s l eps d o q : 0 <= eps -> orthogonal q -> s = sim q (tri d o) -> bnd s l -> neg0 d o eps -> neg1 d o eps ->
  solved s q (4 * eps * l).
Proof.
  intros E0 Oq S B N0 N1. destruct (bnd_diag d o l (bnd_sim s q _ l Oq S B)) as (B0 & B1 & B2).
  split; [exact Oq|]. exists d. replace (4 * eps * l) with (2 * eps * l + 2 * eps * l) by ring.
  eapply appr_trans; [exact (drop1 s l eps d o q E0 Oq S B N1)|]. apply appr_sim; [exact Oq|].
  eapply appr_le; [|apply appr_off0]. rewrite Rminus_0_r. unfold neg0 in N0. nra.
Qed.
Lemma inv_2 s l eps d o q : 0 <= eps -> orthogonal q -> s = sim q (tri d o) -> bnd s l ->
  exists start fin o', delimit_subproblem d o 2 eps = Some (start, fin, o') /\ inv s l eps start fin d o' q.
Proof.
  intros E0 Oq S B. destruct (delimit_2 d o eps E0) as [->|[(-> & N)|[(-> & N)|(-> & N0 & N1)]]]; do 3 eexists; (split; [reflexivity|split; [exact Oq|]]).
  - left. auto.
  - right. left. repeat split. exact (drop0 s l eps d o q E0 Oq S B N).
  - right. right. left. repeat split. eapply drop1; eassumption.
  - right. right. right. split; [reflexivity|split; [reflexivity|]]. eapply drop01; eassumption.
Qed.
Lemma inv_1 s l eps d o q : 0 <= eps -> orthogonal q -> s = sim q (tri d o) -> bnd s l -> neg1 d o eps ->
  exists start fin o', delimit_subproblem d o 1 eps = Some (start, fin, o') /\ inv s l eps start fin d o' q.
Proof.
  intros E0 Oq S B N1. destruct (delimit_1 d o eps) as [->|(-> & N)]; do 3 eexists; (split; [reflexivity|split; [exact Oq|]]).
  - right. right. left. repeat split. eapply drop1; eassumption.
  - right. right. right. split; [reflexivity|split; [reflexivity|]]. eapply drop01; eassumption.
Qed.
Lemma inv_step s l eps start fin d o q : 0 <= eps -> 1 <= l -> bnd s l -> fin <> start -> inv s l eps start fin d o q ->
  exists d1 o1 q1 fin1 start2 fin2 o2, qr_step eps start fin (d, o, q) = Some (d1, o1, q1, fin1) /\
    delimit_subproblem d1 o1 fin1 eps = Some (start2, fin2, o2) /\ inv s l eps start2 fin2 d1 o2 q1.
Proof.
  intros E0 L1 B NE (Oq & [(-> & -> & S)|[(-> & -> & Z & A)|[(-> & -> & A)|(-> & -> & _)]]]); [| | |congruence].
  - unfold qr_step. cbn [Nat.sub Nat.add Nat.ltb Nat.leb v3_get v2_get bind].
    destruct d as [d0 d1 d2], o as [o0 o1]. cbn [vx vy vz px py].
    match goal with |- context [chase 0 2 2 0 (mkV2 ?x o0)] => destruct (chase_spec x d0 d1 d2 o0 o1 q Oq) as (d' & o' & q' & -> & Oq' & Q) end.
    cbn [bind]. rewrite coupling_1. cbn [bind fst snd o_leb R_ops]. rewrite <- Q in S.
    destruct (Rleb _ _) eqn:E.
    + apply Rleb_true in E. destruct (inv_1 s l eps d' o' q' E0 Oq' S B E) as (a & b & o'' & D & I).
      do 7 eexists. split; [reflexivity|]. split; [exact D|exact I].
    + destruct (inv_2 s l eps d' o' q' E0 Oq' S B) as (a & b & o'' & D & I).
      do 7 eexists. split; [reflexivity|]. split; [exact D|exact I].
  - unfold qr_step. cbn [Nat.sub Nat.add Nat.ltb Nat.leb Nat.eqb v3_get v2_get bind].
    destruct d as [d0 d1 d2], o as [o0 o1]. cbn [vx vy vz px py] in *. subst o0.
    destruct (eigvals_R d1 o1 d2) as (v1 & v2 & -> & X). cbn [bind fst snd px py v3_set v2_set vx vy vz o_sub R_ops].
    destruct (two_1 d0 d1 o1 d2 (v1 - d2) eps q E0 Oq X) as (q' & l' & e & -> & Oq' & Be & Q). cbn [bind].
    do 7 eexists. split; [reflexivity|].
    set (dd := mkV3 d0 v1 v2).
    assert (N : neg0 dd (mkV2 0 o1) eps).
    { unfold neg0. cbn [px]. rewrite Rabs_R0. pose proof (Rabs_pos (vy dd)). pose proof (Rabs_pos (vx dd)). nra. }
    split.
    { unfold delimit_subproblem. cbn [delimit_end Nat.sub]. rewrite coupling_0. cbn [bind fst snd o_ltb R_ops].
      destruct (Rltb _ _) eqn:E; [|reflexivity]. exfalso. apply Rltb_true in E. unfold neg0 in N. lra. }
    split; [exact Oq'|]. right. right. right. split; [reflexivity|split; [reflexivity|split; [exact Oq'|]]]. exists l'.
    eapply appr_le; [|eapply appr_trans; [exact A|]; rewrite Q; apply appr_sim; [exact Oq'|apply appr_off1]].
    rewrite Rminus_0_r. nra.
  - unfold qr_step. cbn [Nat.sub Nat.add Nat.ltb Nat.leb Nat.eqb v3_get v2_get bind].
    destruct d as [d0 d1 d2], o as [o0 o1]. cbn [vx vy vz px py] in *.
    destruct (eigvals_R d0 o0 d1) as (v1 & v2 & -> & X). cbn [bind fst snd px py v3_set v2_set vx vy vz o_sub R_ops].
    destruct (two_0 d0 o0 d1 d2 (v1 - d1) eps q E0 Oq X) as (q' & l' & e & -> & Oq' & Be & Q). cbn [bind].
    do 7 eexists. split; [reflexivity|]. split; [reflexivity|].
    split; [exact Oq'|]. right. right. right. split; [reflexivity|split; [reflexivity|split; [exact Oq'|]]]. exists l'.
    eapply appr_le; [|eapply appr_trans; [exact A|]; rewrite Q; apply appr_sim; [exact Oq'|apply appr_off0]].
    rewrite Rminus_0_r. nra.
Qed.
Lemma loop_spec s l eps : 0 <= eps -> 1 <= l -> bnd s l -> forall left start fin d o q, inv s l eps start fin d o q ->
  exists r, qr_loop eps left start fin (d, o, q) = Some r /\ forall d' q', r = Some (d', q') -> solved s q' (4 * eps * l).
Proof.
  intros E0 L1 B. induction left as [|n IH]; intros start fin d o q I.
  - cbn [qr_loop]. destruct (Nat.eqb fin start) eqn:E; [|eexists; split; [reflexivity|discriminate]].
    apply Nat.eqb_eq in E. eexists. split; [reflexivity|]. intros d' q' H. injection H as <- <-.
    destruct I as (_ & [(-> & -> & _)|[(-> & -> & _)|[(-> & -> & _)|(_ & _ & H)]]]); [discriminate|discriminate|discriminate|exact H].
  - cbn [qr_loop]. destruct (Nat.eqb fin start) eqn:E.
    + apply Nat.eqb_eq in E. eexists. split; [reflexivity|]. intros d' q' H. injection H as <- <-.
      destruct I as (_ & [(-> & -> & _)|[(-> & -> & _)|[(-> & -> & _)|(_ & _ & H)]]]); [discriminate|discriminate|discriminate|exact H].
    + apply Nat.eqb_neq in E. destruct (inv_step s l eps start fin d o q E0 L1 B E I) as (d1 & o1 & q1 & fin1 & start2 & fin2 & o2 & -> & D & I2).
      cbn [bind]. rewrite D. cbn [bind]. destruct (Nat.eqb n 0); [eexists; split; [reflexivity|discriminate]|]. now apply IH.
Qed.
