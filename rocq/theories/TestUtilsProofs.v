(** * TestUtilsProofs.v - lemmas on the grid generator and the round trip helpers *)

From Coq Require Import List Arith Lia Reals Lra.
From Verif Require Import Scalar Linalg Bundles Extrinsics Perspective Orthographic Camera TestUtils Spec Rows RealBase VecLemmas ExtrinsicsProofs IntrinsicsProofs CameraProofs.
Import ListNotations.

Lemma fold_opt_app {A St} (f : A -> St -> option St) (l l' : list A) (s : St) :
  fold_left (fun s x => s' <- s ;; f x s') (l ++ l') (Some s)
  = (s' <- fold_left (fun s x => s' <- s ;; f x s') l (Some s) ;;
     fold_left (fun s x => s' <- s ;; f x s') l' (Some s')).
Proof.
  rewrite fold_left_app. destruct (fold_left _ l (Some s)) as [s'|]; [reflexivity|].
  cbn. induction l'; [reflexivity|]. cbn. exact IHl'.
Qed.

(** number of turns of the loop *)
Definition turns (start stop step : nat) : nat :=
  if Nat.leb stop start then 0 else S ((stop - start - 1) / step).

Lemma turns_spec start stop step j : 0 < step ->
  (j < turns start stop step <-> start + j * step < stop).
Proof.
  intros Hs. unfold turns. destruct (Nat.leb_spec stop start) as [L|L].
  - split; [lia|]. intros H. exfalso. nia.
  - pose proof (Nat.div_mod (stop - start - 1) step ltac:(lia)) as D.
    pose proof (Nat.mod_upper_bound (stop - start - 1) step ltac:(lia)) as M.
    set (d := (stop - start - 1) / step) in *. split; intros H.
    + assert (j * step <= d * step) by (apply Nat.mul_le_mono_r; lia). nia.
    + destruct (Nat.lt_ge_cases j (S d)) as [|G]; [assumption|]. exfalso.
      assert (S d * step <= j * step) by (apply Nat.mul_le_mono_r; lia). nia.
Qed.

Lemma fold_left_map {A B C} (f : C -> B -> C) (g : A -> B) (l : list A) (c : C) :
  fold_left f (map g l) c = fold_left (fun c a => f c (g a)) l c.
Proof. revert c. induction l; intros c; cbn; auto. Qed.

Section P.
Variable umax : nat.

Lemma for_iter_seq {St} (body : nat -> St -> option St) step : 0 < step ->
  forall fuel start stop s, stop <= umax -> stop - start <= fuel ->
  for_iter umax fuel (range_step start stop step) body s
  = fold_left (fun s i => s' <- s ;; body (start + i * step) s') (seq 0 (turns start stop step)) (Some s).
Proof.
  intros Hs. induction fuel as [|fuel IH]; intros start stop s Hu Hf.
  - assert (stop <= start) by lia. cbn [for_iter]. unfold rs_next. cbn [range_step rs_state rs_stop rs_step].
    replace (Nat.ltb start stop) with false by (symmetry; apply Nat.ltb_ge; lia).
    replace (turns start stop step) with 0; [reflexivity|].
    unfold turns. replace (Nat.leb stop start) with true; [reflexivity|]. symmetry. now apply Nat.leb_le.
  - cbn [for_iter]. unfold rs_next. cbn [range_step rs_state rs_stop rs_step].
    destruct (Nat.ltb_spec start stop) as [L|L].
    + assert (T0 : 0 < turns start stop step) by (apply turns_spec; lia).
      set (next := match checked_add umax start step with Some x => x | None => stop end).
      assert (T1 : turns start stop step = S (turns next stop step)).
      { enough (forall j, j < turns start stop step <-> j < S (turns next stop step)) as K.
        { destruct (lt_eq_lt_dec (turns start stop step) (S (turns next stop step))) as [[G|G]|G]; [|exact G|].
          - apply K in G. lia.
          - apply K in G. lia. }
        intros [|j]; [lia|]. rewrite turns_spec by exact Hs. rewrite <- Nat.succ_lt_mono, turns_spec by exact Hs.
        unfold next, checked_add. destruct (Nat.leb_spec (start + step) umax) as [G|G]; cbn; lia. }
      rewrite T1. cbn [seq fold_left bind]. rewrite Nat.mul_0_l, Nat.add_0_r.
      destruct (body start s) as [s'|]; cbn [bind].
      * change (mkRange next stop step) with (range_step next stop step).
        assert (Hn : start < next) by (unfold next, checked_add; destruct (Nat.leb (start + step) umax); lia).
        rewrite IH by lia. clear IH T1 T0 s. revert Hn. unfold next, checked_add.
        destruct (Nat.leb_spec (start + step) umax) as [G|G]; intros Hn.
        -- rewrite <- (seq_shift (turns (start + step) stop step) 0), fold_left_map.
           generalize (Some s'). induction (seq 0 (turns (start + step) stop step)) as [|i l IHl]; intros o; [reflexivity|].
           cbn [fold_left]. rewrite <- IHl. f_equal. destruct o; cbn [bind]; [|reflexivity].
           replace (start + step + i * step) with (start + S i * step) by (cbn; lia). reflexivity.
        -- replace (turns stop stop step) with 0; [reflexivity|]. unfold turns. now rewrite Nat.leb_refl.
      * symmetry. clear. induction (seq 1 (turns next stop step)); [reflexivity|exact IHl].
    + replace (turns start stop step) with 0; [reflexivity|].
      unfold turns. replace (Nat.leb stop start) with true; [reflexivity|]. symmetry. now apply Nat.leb_le.
Qed.

Lemma fold_some {A B} (g : A -> list B) (l : list A) : forall acc,
  fold_left (fun s i => s' <- s ;; Some (s' ++ g i)) l (Some acc) = Some (acc ++ flat_map g l).
Proof.
  induction l as [|a l IH]; intros acc; cbn; [now rewrite app_nil_r|].
  rewrite IH. now rewrite <- app_assoc.
Qed.
Lemma fold_ext {A St} (f g : A -> St -> option St) (l : list A) :
  (forall a s, f a s = g a s) -> forall o,
  fold_left (fun s i => s' <- s ;; f i s') l o = fold_left (fun s i => s' <- s ;; g i s') l o.
Proof.
  intros H. induction l as [|a l IH]; intros o; [reflexivity|]. cbn. rewrite IH. f_equal.
  destruct o; cbn; auto.
Qed.

Section S.
Context {T : Type} {O : Ops T}.
Variable as_scalar : nat -> T.

(** the second half: the matrix is the list *)
Lemma fill_pixels (uv : list (V2 T)) :
  for_range 0 (length uv) (fun i data =>
    for_range 0 2 (fun j data =>
      u <- nth_error uv i ;; x <- v2_get u j ;; mat2_set data i j x) data) (repeat (mkV2 o_zero o_zero) (length uv))
  = Some uv.
Proof.
  rewrite (for_rows (fun u => u)); [now rewrite map_id|].
  intros i a pre x suf Hn Hp. cbn [for_range]. rewrite Hn. destruct a as [a b], x as [x y]. cbn [bind v2_get].
  rewrite mat2_set_mid by exact Hp. cbn [bind v2_set]. rewrite mat2_set_mid by exact Hp. reflexivity.
Qed.

Definition grid (nr nc step border : nat) : list (V2 T) :=
  flat_map (fun j => map (fun i => mkV2 (as_scalar (border + i * step)) (as_scalar (border + j * step)))
    (seq 0 nc)) (seq 0 nr).

Lemma flat_map_single {A B} (f : A -> B) l : flat_map (fun x => [f x]) l = map f l.
Proof. induction l; cbn; congruence. Qed.

Lemma generate_ok width height step border : 0 < step -> width <= umax -> height <= umax ->
  generate_uv_raw umax as_scalar width height step border =
  if Nat.ltb height border then None
  else if Nat.eqb (turns border (height - border) step) 0 then Some (mkPixels [])
  else if Nat.ltb width border then None
  else Some (mkPixels (grid (turns border (height - border) step) (turns border (width - border) step) step border)).
Proof.
  intros Hs Hw Hh. unfold generate_uv_raw, usub at 1.
  destruct (Nat.leb_spec border height) as [L|L].
  2:{ replace (Nat.ltb height border) with true; [reflexivity|]. symmetry. now apply Nat.ltb_lt. }
  replace (Nat.ltb height border) with false by (symmetry; now apply Nat.ltb_ge). cbn [bind].
  rewrite for_iter_seq by lia. unfold usub.
  destruct (Nat.eqb_spec (turns border (height - border) step) 0) as [E|E].
  { rewrite E. reflexivity. }
  destruct (Nat.leb_spec border width) as [L'|L'].
  - replace (Nat.ltb width border) with false by (symmetry; now apply Nat.ltb_ge).
    rewrite (fold_ext _ (fun j acc => Some (acc ++ map (fun i => mkV2 (as_scalar (border + i * step)) (as_scalar (border + j * step)))
       (seq 0 (turns border (width - border) step))))).
    2:{ intros j acc. cbn [bind]. rewrite for_iter_seq by lia. rewrite fold_some. now rewrite flat_map_single. }
    rewrite fold_some. cbn [app bind]. fold (grid (turns border (height - border) step) (turns border (width - border) step) step border).
    rewrite fill_pixels. reflexivity.
  - replace (Nat.ltb width border) with true by (symmetry; now apply Nat.ltb_lt).
    destruct (turns border (height - border) step) as [|n]; [congruence|]. cbn [seq fold_left bind].
    assert (N : forall (g : nat -> list (V2 T) -> option (list (V2 T))) l, fold_left (fun s i => s' <- s ;; g i s') l None = None) by (intros g; induction l; auto).
    rewrite (N (fun _ _ => None)). reflexivity.
Qed.

Lemma C53_lemma (width height step border : nat) :
  0 < step -> width <= umax -> height <= umax ->
  (generate_uv_raw umax as_scalar width height step border = None <->
     height < border \/ (border < height - border /\ width < border)) /\
  (forall px, generate_uv_raw umax as_scalar width height step border = Some px ->
     exists nr nc,
       (forall j, j < nr <-> border + j * step < height - border) /\
       (0 < nr -> forall i, i < nc <-> border + i * step < width - border) /\
       pix_data px = flat_map (fun j => map (fun i =>
         mkV2 (as_scalar (border + i * step)) (as_scalar (border + j * step))) (seq 0 nc)) (seq 0 nr)).
Proof.
  intros Hs Hw Hh. rewrite generate_ok by assumption.
  pose proof (turns_spec border (height - border) step) as Tr.
  pose proof (turns_spec border (width - border) step) as Tc.
  set (nr := turns border (height - border) step) in *. set (nc := turns border (width - border) step) in *.
  destruct (Nat.ltb_spec height border) as [L|L].
  { split; [tauto|]. intros px H. discriminate. }
  destruct (Nat.eqb_spec nr 0) as [E|E].
  { split.
    - split; [discriminate|]. intros [H|[H _]]; [lia|]. exfalso.
      assert (0 < nr) by (apply Tr; lia). lia.
    - intros px H. injection H as <-. exists 0, 0. split; [|split; [lia|reflexivity]].
      intros j. specialize (Tr j Hs). rewrite E in Tr. exact Tr. }
  assert (P : 0 < nr) by lia. assert (P' : border + 0 * step < height - border) by (apply Tr; lia).
  destruct (Nat.ltb_spec width border) as [L'|L'].
  { split; [split; [intros _; right; lia|reflexivity]|]. intros px H. discriminate. }
  split; [split; [discriminate|lia]|].
  intros px H. injection H as <-. exists nr, nc. split; [auto|]. split; [auto|reflexivity].
Qed.

(** no pixel occurs twice if the conversion to scalars is injective *)
Lemma NoDup_map_inj {A B} (f : A -> B) (l : list A) :
  (forall a b, In a l -> In b l -> f a = f b -> a = b) -> NoDup l -> NoDup (map f l).
Proof.
  intros H N. induction N as [|a l Ha N IH]; cbn; constructor.
  - intros K. apply in_map_iff in K. destruct K as (b & E & K). apply Ha.
    rewrite <- (H b a); [exact K|right; exact K|left; reflexivity|exact E].
  - apply IH. intros x y Hx Hy. apply H; right; assumption.
Qed.
Lemma NoDup_app' {A} (l l' : list A) : NoDup l -> NoDup l' -> (forall a, In a l -> In a l' -> False) -> NoDup (l ++ l').
Proof.
  intros N N' H. induction N as [|a l Ha N IH]; cbn; [exact N'|]. constructor.
  - rewrite in_app_iff. intros [K|K]; [auto|]. apply (H a); [left; reflexivity|exact K].
  - apply IH. intros x Hx. apply H. right. exact Hx.
Qed.

Lemma C53b_lemma (width height step border : nat) px :
  0 < step -> width <= umax -> height <= umax ->
  (forall a b, a <= umax -> b <= umax -> as_scalar a = as_scalar b -> a = b) ->
  generate_uv_raw umax as_scalar width height step border = Some px ->
  NoDup (pix_data px) /\
  (border <= width -> forall u v, In (mkV2 u v) (pix_data px) <->
     exists i j, u = as_scalar (border + i * step) /\ v = as_scalar (border + j * step) /\
       border + i * step < width - border /\ border + j * step < height - border).
Proof.
  intros Hs Hw Hh Inj H. destruct (C53_lemma width height step border Hs Hw Hh) as (_ & G).
  destruct (G px H) as (nr & nc & Hr & Hc & ->). clear G H. split.
  - assert (Br : forall j, In j (seq 0 nr) -> border + j * step < height - border)
      by (intros j Hj; apply in_seq in Hj; apply Hr; lia).
    destruct (Nat.eq_dec nr 0) as [E|E]; [subst; constructor|]. specialize (Hc ltac:(lia)).
    assert (Bc : forall i, In i (seq 0 nc) -> border + i * step < width - border)
      by (intros j Hj; apply in_seq in Hj; apply Hc; lia).
    clear Hr Hc E. pose proof (seq_NoDup nr 0) as Nr. pose proof (seq_NoDup nc 0) as Nc.
    revert Br Nr. induction (seq 0 nr) as [|j l IH]; intros Br Nr; cbn; [constructor|].
    inversion Nr as [|? ? Hj Nr']; subst. apply NoDup_app'.
    + apply NoDup_map_inj; [|exact Nc]. intros a b Ha Hb E. injection E as E.
      apply Inj in E; [nia| |]; [pose proof (Bc a Ha)|pose proof (Bc b Hb)]; lia.
    + apply IH; [|exact Nr']. intros; apply Br; right; assumption.
    + intros u Ha Hb. apply in_map_iff in Ha. destruct Ha as (i & <- & Hi).
      apply in_flat_map in Hb. destruct Hb as (j' & Hj' & Hb). apply in_map_iff in Hb.
      destruct Hb as (i' & E & Hi'). injection E as _ E.
      pose proof (Br j (or_introl eq_refl)). pose proof (Br j' (or_intror Hj')).
      apply Inj in E; [|lia|lia]. assert (j' = j) by nia. subst. contradiction.
  - intros Hb u v. rewrite in_flat_map. split.
    + intros (j & Hj & K). apply in_map_iff in K. destruct K as (i & E & Hi). injection E as <- <-.
      apply in_seq in Hj, Hi. exists i, j. repeat split; [apply Hc; lia|apply Hr; lia].
    + intros (i & j & -> & -> & Hi & Hj). apply Hr in Hj. exists j.
      split; [apply in_seq; lia|]. apply in_map_iff. exists i. split; [reflexivity|].
      apply in_seq. assert (i < nc) by (apply Hc; lia). lia.
Qed.

(** ** The helpers succeed exactly when the round trip is accurate *)
Lemma assert_ok (a b : list (V2 T)) eps : length a = length b ->
  (assert_abs_diff_eq a b eps = Some tt <->
   Forall2 (fun p q => o_leb (o_abs (o_sub (px p) (px q))) eps = true /\
                       o_leb (o_abs (o_sub (py p) (py q))) eps = true) a b).
Proof.
  unfold assert_abs_diff_eq. intros L.
  assert (E : pixels_abs_diff_eq a b eps = true <->
    Forall2 (fun p q => o_leb (o_abs (o_sub (px p) (px q))) eps = true /\
                        o_leb (o_abs (o_sub (py p) (py q))) eps = true) a b).
  { unfold pixels_abs_diff_eq. revert b L. induction a as [|p a IH]; intros [|q b] L; try discriminate L.
    - cbn. split; [constructor|reflexivity].
    - cbn. rewrite Bool.andb_true_iff, IH by (cbn in L; congruence). unfold abs_diff_eq. cbn.
      rewrite Bool.andb_true_iff. split.
      + intros [H1 H2]. constructor; assumption.
      + intros H. inversion H; subst. auto. }
  rewrite <- E. destruct (pixels_abs_diff_eq a b eps); split; auto; discriminate.
Qed.

Lemma C64_lemma {I} {HI : IntrinsicParameters T I} {HB : Bundle T BundleType}
    (cam : I) (width height step border : nat) (eps : T) :
  (forall px rays pts px', pixel_to_camera cam px = Some rays -> point_on_ray rays = Some pts ->
     camera_to_pixel cam pts = Some px' -> length (pix_data px) = length (pix_data px')) ->
  (roundtrip_intrinsics umax as_scalar cam width height step border eps = Some tt <->
   exists px rays pts px',
     generate_uv_raw umax as_scalar width height step border = Some px /\
     pixel_to_camera cam px = Some rays /\ point_on_ray rays = Some pts /\ camera_to_pixel cam pts = Some px' /\
     Forall2 (fun p q => o_leb (o_abs (o_sub (Linalg.px p) (Linalg.px q))) eps = true /\
                         o_leb (o_abs (o_sub (py p) (py q))) eps = true) (pix_data px) (pix_data px')).
Proof.
  intros L. unfold roundtrip_intrinsics. split.
  - intros H. destruct (generate_uv_raw _ _ _ _ _ _) as [px|]; [|discriminate]. cbn [bind] in H.
    destruct (pixel_to_camera cam px) as [rays|] eqn:E1; [|discriminate]. cbn [bind] in H.
    destruct (point_on_ray rays) as [pts|] eqn:E2; [|discriminate]. cbn [bind] in H.
    destruct (camera_to_pixel cam pts) as [px'|] eqn:E3; [|discriminate]. cbn [bind] in H.
    exists px, rays, pts, px'. repeat (split; [assumption || reflexivity|]).
    apply assert_ok; [eapply L; eassumption|exact H].
  - intros (px & rays & pts & px' & E0 & E1 & E2 & E3 & F).
    rewrite E0. cbn [bind]. rewrite E1. cbn [bind]. rewrite E2. cbn [bind]. rewrite E3. cbn [bind].
    apply assert_ok; [eapply L; eassumption|exact F].
Qed.
End S.

Lemma assert_refl (a : list (V2 R)) eps : (0 <= eps)%R -> assert_abs_diff_eq a a eps = Some tt.
Proof.
  intros H. apply assert_ok; [reflexivity|]. induction a; constructor; [|assumption].
  cbn. unfold Rleb. rewrite !Rminus_eq_0, Rabs_R0. destruct (Rle_dec 0 eps); [auto|contradiction].
Qed.

Lemma C54_lemma (as_scalar : nat -> R) (width height step border : nat) (eps : R) :
  (0 <= eps)%R ->
  (forall k : PerspectiveParams R, pp_fx k <> 0%R -> pp_fy k <> 0%R ->
     (roundtrip_intrinsics umax as_scalar (perspective_from k) width height step border eps = Some tt <->
      generate_uv_raw umax as_scalar width height step border <> None)) /\
  (forall k : OrthographicParams R, op_sx k <> 0%R -> op_sy k <> 0%R ->
     (roundtrip_intrinsics umax as_scalar (orthographic_from k) width height step border eps = Some tt <->
      generate_uv_raw umax as_scalar width height step border <> None)).
Proof.
  intros He. split; intros k A B; unfold roundtrip_intrinsics;
    (destruct (generate_uv_raw umax as_scalar width height step border) as [[data]|]; [|split; [discriminate|intros H; now contradiction H]]);
    cbn [bind]; (split; [discriminate|intros _]).
  - destruct (C14_lemma k data A B) as (rays & E1 & (pts & E2 & E3) & _).
    cbn [BundleType Perspective_Intrinsics] in *. rewrite E1. cbn [bind]. 
    match goal with |- context [@point_on_ray ?a ?b ?c ?d ?e] => change (@point_on_ray a b c d e) with (point_on_ray rays) end.
    rewrite E2. cbn [bind]. rewrite E3. cbn [bind pix_data]. now apply assert_refl.
  - destruct (C22_lemma k A B) as (G & _). destruct (G data) as (rays & E1 & (pts & E2 & E3) & _).
    rewrite E1. cbn [bind].
    match goal with |- context [@point_on_ray ?a ?b ?c ?d ?e] => change (@point_on_ray a b c d e) with (point_on_ray rays) end.
    rewrite E2. cbn [bind]. rewrite E3. cbn [bind pix_data]. now apply assert_refl.
Qed.

Lemma C63_lemma (as_scalar : nat -> R) (width height step border : nat) (eps : R) q c :
  (0 <= eps)%R -> unit_quat q ->
  (forall k : PerspectiveParams R, pp_fx k <> 0%R -> pp_fy k <> 0%R ->
     (roundtrip_camera umax as_scalar (camera_new (perspective_from k) (from_rotation_and_camcenter q c))
        width height step border eps = Some tt <->
      generate_uv_raw umax as_scalar width height step border <> None)) /\
  (forall k : OrthographicParams R, op_sx k <> 0%R -> op_sy k <> 0%R ->
     (roundtrip_camera umax as_scalar (camera_new (orthographic_from k) (from_rotation_and_camcenter q c))
        width height step border eps = Some tt <->
      generate_uv_raw umax as_scalar width height step border <> None)).
Proof.
  intros He U. destruct (C29_lemma q c U) as (GP & GO).
  split; intros k A B; unfold roundtrip_camera;
    (destruct (generate_uv_raw umax as_scalar width height step border) as [[data]|]; [|split; [discriminate|intros H; now contradiction H]]);
    cbn [bind]; (split; [discriminate|intros _]).
  - destruct (GP k A B) as (G & _). destruct (G data) as (rays & E1 & (pts & E2 & E3) & _).
    rewrite E1. cbn [bind].
    match goal with |- context [@point_on_ray ?a ?b ?c ?d ?e] => change (@point_on_ray a b c d e) with (point_on_ray rays) end.
    rewrite E2. cbn [bind]. rewrite E3. cbn [bind pix_data]. now apply assert_refl.
  - destruct (GO k A B) as (G & _). destruct (G data) as (rays & E1 & (pts & E2 & E3) & _).
    rewrite E1. cbn [bind].
    match goal with |- context [@point_on_ray ?a ?b ?c ?d ?e] => change (@point_on_ray a b c d e) with (point_on_ray rays) end.
    rewrite E2. cbn [bind]. rewrite E3. cbn [bind pix_data]. now apply assert_refl.
Qed.
End P.
