(** * PropFloatDir.v - property theorems C89, C90: points at a distance in IEEE arithmetic *)

From Coq Require Import ZArith Reals List Bool Lra Lia.
From Flocq Require Import Core BinarySingleNaN.
From Verif Require Import Scalar Linalg Bundles Spec SpecFloatErr FloatDirProofs FloatDirProofs2.
Import ListNotations.
Local Open Scope R_scope.

(** Any IEEE format with at least 11 bits of precision; [u] is the unit roundoff. *)
Section IEEE.
Variables (prec emax : Z) (Hp : Prec_gt_0 prec) (He : Prec_lt_emax prec emax).
Variables fsin fcos : binary_float prec emax -> binary_float prec emax.
Local Notation F := (binary_float prec emax).
Local Hint Extern 0 (Ops (binary_float prec emax)) =>
  exact (B_ops prec emax Hp He fsin fcos) : typeclass_instances.
Local Notation u := (bpow radix2 (- prec)).

(** C89: with directions of length between [2^-E] and [2^E], the points at a given
    distance are within 9 units of roundoff times the size [M] of the center and the
    distance, whatever the length of the direction. *)
Theorem C89_point_at_distance_error {C} (E : Z) (M : R) (dist : F) (c d : V3 F) dirs centers :
  (11 <= prec)%Z -> (0 <= E)%Z -> (2 * E + 4 <= emax)%Z -> 1 <= M <= bpow radix2 E -> sized 0 M dist ->
  (vec_sized M c -> Forall (fun d => vec_finite d /\ bpow radix2 (- E) <= vlen (vreal d) <= bpow radix2 E) dirs ->
   exists pts, point_on_ray_at_distance (mkRayBundle (Coords := C) dirs (mkSO c)) dist = Some (mkPoints pts) /\
     Forall2 (fun d p => vec_near (9 * u * M) p (point_away c dist d)) dirs pts) /\
  (vec_finite d -> bpow radix2 (- E) <= vlen (vreal d) <= bpow radix2 E -> Forall (vec_sized M) centers ->
   exists pts, point_on_ray_at_distance (mkRayBundle (Coords := C) centers (mkSD d)) dist = Some (mkPoints pts) /\
     Forall2 (fun c p => vec_near (9 * u * M) p (point_away c dist d)) centers pts).
Proof. intros P11 E0 E2. exact (C89_lemma prec emax Hp He fsin fcos P11 E E0 E2 M dist c d dirs centers). Qed.

(** C90: a direction with a coordinate of at least [2^a], [2a >= emax], gives the
    center itself for every finite distance; one whose coordinates are at most [2^b],
    [2b <= 1 - emax - prec], gives no finite coordinate, whatever the distance. *)
Theorem C90_extreme_directions {C} (a b : Z) (c d : V3 F) (dist : F) dirs centers : (emax <= 2 * a)%Z -> (2 * b <= 1 - emax - prec)%Z ->
  let long (d : V3 F) := vec_finite d /\ (bpow radix2 a <= Rabs (B2R (vx d)) \/ bpow radix2 a <= Rabs (B2R (vy d)) \/ bpow radix2 a <= Rabs (B2R (vz d))) in
  let short (d : V3 F) := vec_sized (bpow radix2 b) d in
  (is_finite dist = true -> vec_finite c -> Forall long dirs ->
   exists pts, point_on_ray_at_distance (mkRayBundle (Coords := C) dirs (mkSO c)) dist = Some (mkPoints pts) /\
     Forall2 (fun _ p => vec_near 0 p (vreal c)) dirs pts) /\
  (is_finite dist = true -> long d -> Forall vec_finite centers ->
   exists pts, point_on_ray_at_distance (mkRayBundle (Coords := C) centers (mkSD d)) dist = Some (mkPoints pts) /\
     Forall2 (fun c p => vec_near 0 p (vreal c)) centers pts) /\
  (Forall short dirs ->
   exists pts, point_on_ray_at_distance (mkRayBundle (Coords := C) dirs (mkSO c)) dist = Some (mkPoints pts) /\
     Forall2 (fun _ p => vec_not_finite p) dirs pts) /\
  (short d ->
   exists pts, point_on_ray_at_distance (mkRayBundle (Coords := C) centers (mkSD d)) dist = Some (mkPoints pts) /\
     Forall2 (fun _ p => vec_not_finite p) centers pts).
Proof. exact (C90_lemma prec emax Hp He fsin fcos a b c d dist dirs centers). Qed.
End IEEE.
Print Assumptions C89_point_at_distance_error.
Print Assumptions C90_extreme_directions.

Section F64.
Variables fsin fcos : f64 -> f64.
Local Hint Extern 0 (Ops f64) => exact (f64_ops fsin fcos) : typeclass_instances.

(** C89: double precision, centers and distances up to 10000, directions of length
    between 1/1000 and 1000000: within [2/10^11]. *)
Theorem C89_point_at_distance_f64 {C} (dist : f64) (c d : V3 f64) dirs centers : sized 0 10000 dist ->
  (vec_sized 10000 c -> Forall (fun d : V3 f64 => vec_finite d /\ 1 / 1000 <= vlen (vreal d) <= 1000000) dirs ->
   exists pts, point_on_ray_at_distance (mkRayBundle (Coords := C) dirs (mkSO c)) dist = Some (mkPoints pts) /\
     Forall2 (fun d p => vec_near (2 / 100000000000) p (point_away c dist d)) dirs pts) /\
  (vec_finite d -> 1 / 1000 <= vlen (vreal d) <= 1000000 -> Forall (vec_sized 10000) centers ->
   exists pts, point_on_ray_at_distance (mkRayBundle (Coords := C) centers (mkSD d)) dist = Some (mkPoints pts) /\
     Forall2 (fun c p => vec_near (2 / 100000000000) p (point_away c dist d)) centers pts).
Proof. exact (C89b_lemma fsin fcos dist c d dirs centers). Qed.

(** 26 away from (1, 2, 3) in the direction (3, 4, 12) *)
Local Notation lit m e := (@o_lit f64 (f64_ops fsin fcos) m%Z e%Z).
Local Ltac value := cbv -[IZR Rdiv Rinv Rmult Ropp]; first [lra|field].
Local Ltac size v := split; [reflexivity|];
  match goal with |- _ <= Rabs ?x <= _ => replace x with v; [rewrite Rabs_pos_eq; lra|] end;
  cbv -[IZR Rdiv Rinv Rmult]; first [lra|field].
Definition ex_cd : V3 f64 := mkV3 (lit 1 0) (lit 2 0) (lit 3 0).
Definition ex_dd : V3 f64 := mkV3 (lit 3 0) (lit 4 0) (lit 12 0).
Example ex_dd_len : vlen (vreal ex_dd) = 13.
Proof.
  unfold vlen. replace (vdot (vreal ex_dd) (vreal ex_dd)) with (13 * 13); [apply sqrt_square; lra|].
  replace (vreal ex_dd) with (mkV3 3 4 12); [unfold vdot; cbn [vx vy vz]; ring|].
  unfold vreal, ex_dd; cbn [vx vy vz]. f_equal; value.
Qed.
Example C89_case (C : Type) : exists pts,
  point_on_ray_at_distance (mkRayBundle (Coords := C) [ex_dd] (mkSO ex_cd)) (lit 26 0) = Some (mkPoints pts) /\
  Forall2 (fun d p => vec_near (2 / 100000000000) p (point_away ex_cd (lit 26 0) d)) [ex_dd] pts.
Proof.
  apply (C89_point_at_distance_f64 (lit 26 0) ex_cd ex_dd [ex_dd] []).
  - size 26.
  - split; [size 1|split; [size 2|size 3]].
  - apply Forall_cons; [|apply Forall_nil]. split; [repeat split; reflexivity|]. rewrite ex_dd_len. lra.
Qed.
Example C89_case_value : point_away ex_cd (lit 26 0) ex_dd = mkV3 7 10 27.
Proof.
  unfold point_away. rewrite ex_dd_len.
  replace (vreal ex_dd) with (mkV3 3 4 12) by (unfold vreal, ex_dd; cbn [vx vy vz]; f_equal; value).
  replace (vreal ex_cd) with (mkV3 1 2 3) by (unfold vreal, ex_cd; cbn [vx vy vz]; f_equal; value).
  replace (B2R (lit 26 0)) with 26 by value. unfold vadd, vscl; cbn [vx vy vz]. f_equal; field.
Qed.

(** the direction (2^512, 0, 0) and the direction (2^-538, 2^-538, 0) *)
Definition ex_long : V3 f64 := mkV3 (lit 1 512) (lit 0 0) (lit 0 0).
Definition ex_short : V3 f64 := mkV3 (lit 1 (-538)) (lit 1 (-538)) (lit 0 0).
Local Ltac power := rewrite <- (Rmult_1_l (bpow radix2 _)); apply (FloatRound.fl_lit 53 1024 f64_prec f64_emax fsin fcos 1);
  [rewrite Rmult_1_l; apply FloatRound.fmt_bpow; [exact f64_prec|lia]|rewrite Rmult_1_l, Rabs_pos_eq by apply bpow_ge_0; apply bpow_lt; lia].
Example ex_long_x : B2R (vx ex_long) = bpow radix2 512. Proof. power. Qed.
Example ex_short_x : B2R (lit 1 (-538)) = bpow radix2 (-538). Proof. power. Qed.
Example C90_case (C : Type) :
  (exists p, point_on_ray_at_distance (mkRayBundle (Coords := C) [ex_long] (mkSO ex_cd)) (lit 26 0) = Some (mkPoints [p]) /\
     vec_near 0 p (vreal ex_cd)) /\
  (exists p, point_on_ray_at_distance (mkRayBundle (Coords := C) [ex_short] (mkSO ex_cd)) (lit 26 0) = Some (mkPoints [p]) /\
     vec_not_finite p).
Proof.
  destruct (@C90_extreme_directions 53 1024 f64_prec f64_emax fsin fcos C 512 (-538) ex_cd ex_dd (lit 26 0) [ex_long] []) as (L & _ & _ & _);
    [lia|lia|].
  destruct (@C90_extreme_directions 53 1024 f64_prec f64_emax fsin fcos C 512 (-538) ex_cd ex_dd (lit 26 0) [ex_short] []) as (_ & _ & S & _);
    [lia|lia|].
  split.
  - destruct L as (pts & Q & W); [reflexivity|repeat split; reflexivity| |].
    + apply Forall_cons; [|apply Forall_nil]. split; [repeat split; reflexivity|]. left. eapply Rle_trans; [|apply Rle_abs]. apply Req_le. symmetry. exact ex_long_x.
    + inversion W as [|v p l l' V N]; subst. inversion N; subst. exists p. now split.
  - destruct S as (pts & Q & W).
    + apply Forall_cons; [|apply Forall_nil]. repeat split; try reflexivity; try apply Rabs_pos; cbn [ex_short vx vy vz].
      * apply Req_le. eapply eq_trans; [apply f_equal, ex_short_x|]. apply Rabs_pos_eq, bpow_ge_0.
      * apply Req_le. eapply eq_trans; [apply f_equal, ex_short_x|]. apply Rabs_pos_eq, bpow_ge_0.
      * change (B2R (lit 0 0)) with 0. rewrite Rabs_R0. apply bpow_ge_0.
    + inversion W as [|v p l l' V N]; subst. inversion N; subst. exists p. now split.
Qed.
End F64.
Print Assumptions C89_point_at_distance_f64.
