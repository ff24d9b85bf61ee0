(** * FloatErrProofs2.v - double precision numbers, and the public helper in IEEE arithmetic *)

From Coq Require Import ZArith Reals List Bool Lra Lia Psatz.
From Flocq Require Import Core BinarySingleNaN.
From Verif Require Import Scalar Linalg Bundles Perspective Orthographic TestUtils Rows Spec SpecFloatErr FloatBase FloatRound FloatErrProofs TestUtilsProofs.
Import ListNotations.

Section Helper.
Variables (prec emax : Z) (Hp : Prec_gt_0 prec) (He : Prec_lt_emax prec emax).
Variables fsin fcos : binary_float prec emax -> binary_float prec emax.
Local Notation F := (binary_float prec emax).
Local Hint Extern 0 (Ops (binary_float prec emax)) =>
  exact (B_ops prec emax Hp He fsin fcos) : typeclass_instances.
Local Open Scope R_scope.
Local Notation u := (bpow radix2 (- prec)).
Local Instance fexp_valid : Valid_exp (SpecFloat.fexp prec emax) := fexp_correct prec emax Hp.

Lemma within_leb (e p q : F) b : is_finite e = true -> is_finite p = true -> is_finite q = true ->
  Rabs (B2R q - B2R p) <= b -> b <= B2R e -> o_leb (o_abs (o_sub p q)) e = true.
Proof.
  intros Fe Fp Fq D B.
  assert (L : Rabs (rnd prec emax (B2R p - B2R q)) <= B2R e).
  { apply rnd_abs_le; [assumption|apply generic_format_B2R|]. rewrite Rabs_minus_sym. lra. }
  assert (X : fl prec emax e (B2R e)) by (split; auto).
  assert (S : fl prec emax (o_sub p q) (rnd prec emax (B2R p - B2R q))).
  { apply fl_sub; try (split; auto). eapply Rle_lt_trans; [exact L|].
    pose proof (fl_lt_big _ _ _ _ X) as G. eapply Rle_lt_trans; [apply Rle_abs|exact G]. }
  apply (fl_leb prec emax Hp He fsin fcos _ _ _ _ (fl_abs prec emax Hp He fsin fcos _ _ S) X). exact L.
Qed.

Lemma helper_ok {I} {HI : IntrinsicParameters F I} {HB : Bundle F BundleType} umax as_scalar (cam : I)
    width height step border (eps : F) b px :
  generate_uv_raw umax as_scalar width height step border = Some px ->
  Forall (fun p => is_finite (Linalg.px p) = true /\ is_finite (py p) = true) (pix_data px) ->
  is_finite eps = true -> b <= B2R eps ->
  (exists rays pts back, pixel_to_camera cam px = Some rays /\ point_on_ray rays = Some pts /\
     camera_to_pixel cam pts = Some back /\ Forall2 (pixel_within b) (pix_data px) (pix_data back)) ->
  roundtrip_intrinsics umax as_scalar cam width height step border eps = Some tt.
Proof.
  intros E0 Fin Fe Le (rays & pts & back & E1 & E2 & E3 & W).
  unfold roundtrip_intrinsics. rewrite E0. cbn [bind]. rewrite E1. cbn [bind]. rewrite E2. cbn [bind]. rewrite E3. cbn [bind].
  apply assert_ok.
  - clear - W. induction W; cbn; congruence.
  - clear - W Fin Fe Le Hp. induction W as [|p q l l' (A & B & C & D) W IH]; [constructor|].
    inversion Fin as [|? ? (Fp & Fq) Fin']. subst. constructor; [|now apply IH].
    split; eapply within_leb; eassumption.
Qed.

Lemma grid_pixels umax (as_scalar : nat -> F) width height step border px (P : F -> Prop) :
  (0 < step)%nat -> (width <= umax)%nat -> (height <= umax)%nat ->
  (forall n, (n < width \/ n < height)%nat -> P (as_scalar n)) ->
  generate_uv_raw umax as_scalar width height step border = Some px ->
  Forall (fun p => P (Linalg.px p) /\ P (py p)) (pix_data px).
Proof.
  intros S W H A G.
  destruct (C53_lemma umax as_scalar width height step border S W H) as (_ & L).
  destruct (L px G) as (nr & nc & Hr & Hc & ->). apply Forall_forall. intros p Hin.
  apply in_flat_map in Hin. destruct Hin as (j & Hj & Hin). apply in_map_iff in Hin. destruct Hin as (i & <- & Hi).
  apply in_seq in Hj, Hi. cbn [Linalg.px py]. assert (0 < nr)%nat by lia.
  pose proof (proj1 (Hr j) ltac:(lia)). pose proof (proj1 (Hc ltac:(lia) i) ltac:(lia)).
  split; apply A; lia.
Qed.

Section Ranges.
Variables (E : Z) (M : R).
Hypotheses (P5 : (5 <= prec)%Z) (E0 : (0 <= E)%Z) (E2 : (2 * E + 5 <= emax)%Z) (M1 : 1 <= M <= bpow radix2 E).
Local Notation okscale := (sized (bpow radix2 (- E)) (bpow radix2 E)).

Lemma C66_lemma umax (as_scalar : nat -> F) width height step border (eps : F) :
  (0 < step)%nat -> (width <= umax)%nat -> (height <= umax)%nat ->
  (forall n, (n < width \/ n < height)%nat -> sized 0 M (as_scalar n)) ->
  generate_uv_raw umax as_scalar width height step border <> None ->
  is_finite eps = true ->
  (forall k : OrthographicParams F,
     okscale (op_sx k) -> okscale (op_sy k) -> sized 0 M (op_cx k) -> sized 0 M (op_cy k) ->
     8 * u * M <= B2R eps ->
     roundtrip_intrinsics umax as_scalar (orthographic_from k) width height step border eps = Some tt) /\
  (forall k : PerspectiveParams F,
     okscale (pp_fx k) -> okscale (pp_fy k) -> sized 0 M (pp_cx k) -> sized 0 M (pp_cy k) ->
     sized 0 (Rabs (B2R (pp_fy k))) (pp_skew k) ->
     24 * u * M <= B2R eps ->
     roundtrip_intrinsics umax as_scalar (perspective_from k) width height step border eps = Some tt).
Proof.
  intros S W H A G Fe.
  destruct (generate_uv_raw umax as_scalar width height step border) as [px|] eqn:Eg; [clear G|congruence].
  pose proof (grid_pixels umax as_scalar width height step border px _ S W H A Eg) as Q.
  assert (Fin : Forall (fun p => is_finite (Linalg.px p) = true /\ is_finite (py p) = true) (pix_data px)).
  { eapply Forall_impl; [|exact Q]. intros p ((? & _) & (? & _)). auto. }
  split.
  - intros k SX SY CX CY Le. eapply helper_ok; [exact Eg|exact Fin|exact Fe|exact Le|].
    apply C55_lemma with (E := E); assumption.
  - intros k SX SY CX CY SK Le. eapply helper_ok; [exact Eg|exact Fin|exact Fe|exact Le|].
    apply C56_lemma with (E := E); assumption.
Qed.
End Ranges.
End Helper.

Section F64.
Variables fsin fcos : f64 -> f64.
Local Hint Extern 0 (Ops f64) => exact (f64_ops fsin fcos) : typeclass_instances.
Local Open Scope R_scope.

Lemma range_f64 : 1 <= 10000 <= bpow radix2 20.
Proof. change (bpow radix2 20) with 1048576. lra. Qed.
Lemma u_f64 : bpow radix2 (- (53)) <= / 9000000000000000.
Proof. change (bpow radix2 (-(53))) with (/ 9007199254740992). apply Rinv_le_contravar; lra. Qed.
Lemma scale_f64 (x : f64) : sized (1 / 1000) 1000000 x -> sized (bpow radix2 (- (20))) (bpow radix2 20) x.
Proof.
  intros (A & B & C). split; [exact A|].
  change (bpow radix2 20) with 1048576. change (bpow radix2 (-(20))) with (/ 1048576).
  assert (/ 1048576 <= / 1000) by (apply Rinv_le_contravar; lra). split; lra.
Qed.
Lemma within_weaken {prec emax} a b (p q : V2 (binary_float prec emax)) : a <= b -> pixel_within a p q -> pixel_within b p q.
Proof. intros L (A & B & C & D). repeat split; try assumption; lra. Qed.
Lemma Forall2_impl' {A B} (P Q : A -> B -> Prop) l l' : (forall a b, P a b -> Q a b) -> Forall2 P l l' -> Forall2 Q l l'.
Proof. intros H. induction 1; constructor; auto. Qed.

Lemma C55b_lemma (k : OrthographicParams f64) pixels :
  sized (1 / 1000) 1000000 (op_sx k) -> sized (1 / 1000) 1000000 (op_sy k) ->
  sized 0 10000 (op_cx k) -> sized 0 10000 (op_cy k) ->
  Forall (fun p => sized 0 10000 (px p) /\ sized 0 10000 (py p)) (pix_data pixels) ->
  exists rays pts back,
    pixel_to_camera (orthographic_from k) pixels = Some rays /\
    point_on_ray rays = Some pts /\
    camera_to_pixel (orthographic_from k) pts = Some back /\
    Forall2 (pixel_within (1 / 100000000000)) (pix_data pixels) (pix_data back).
Proof.
  intros SX SY CX CY H.
  destruct (C55_lemma 53 1024 f64_prec f64_emax fsin fcos 20 10000 ltac:(lia) ltac:(lia) ltac:(lia) range_f64 k pixels
    (scale_f64 _ SX) (scale_f64 _ SY) CX CY H) as (rays & pts & back & E1 & E2 & E3 & W).
  exists rays, pts, back. repeat (split; [assumption|]). eapply Forall2_impl'; [|exact W].
  intros p q. apply within_weaken. pose proof u_f64. lra.
Qed.
Lemma C56b_lemma (k : PerspectiveParams f64) pixels :
  sized (1 / 1000) 1000000 (pp_fx k) -> sized (1 / 1000) 1000000 (pp_fy k) ->
  sized 0 10000 (pp_cx k) -> sized 0 10000 (pp_cy k) -> sized 0 (Rabs (B2R (pp_fy k))) (pp_skew k) ->
  Forall (fun p => sized 0 10000 (px p) /\ sized 0 10000 (py p)) (pix_data pixels) ->
  exists rays pts back,
    pixel_to_camera (perspective_from k) pixels = Some rays /\
    point_on_ray rays = Some pts /\
    camera_to_pixel (perspective_from k) pts = Some back /\
    Forall2 (pixel_within (3 / 100000000000)) (pix_data pixels) (pix_data back).
Proof.
  intros SX SY CX CY SK H.
  destruct (C56_lemma 53 1024 f64_prec f64_emax fsin fcos 20 10000 ltac:(lia) ltac:(lia) ltac:(lia) range_f64 k pixels
    (scale_f64 _ SX) (scale_f64 _ SY) CX CY SK H) as (rays & pts & back & E1 & E2 & E3 & W).
  exists rays, pts, back. repeat (split; [assumption|]). eapply Forall2_impl'; [|exact W].
  intros p q. apply within_weaken. pose proof u_f64. lra.
Qed.
End F64.
