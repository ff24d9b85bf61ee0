(** * SvgProofs.v - lemmas on the SVG writer of the example *)

From Coq Require Import List Arith Lia Reals Lra Psatz.
From Verif Require Import Scalar Linalg Bundles Extrinsics Perspective Orthographic Camera Svg Spec SpecSvg Rows RealBase VecLemmas ExtrinsicsProofs CameraProofs BatchProofs.
Import ListNotations.
Local Open Scope R_scope.

(** the least / greatest value of [f] over the points *)
Definition least (f : V2 R -> R) (pts : list (V2 R)) (b : option R) : Prop :=
  match b with
  | None => pts = []
  | Some m => (exists p, In p pts /\ f p = m) /\ forall p, In p pts -> m <= f p
  end.
Definition greatest (f : V2 R -> R) (pts : list (V2 R)) (b : option R) : Prop :=
  match b with
  | None => pts = []
  | Some m => (exists p, In p pts /\ f p = m) /\ forall p, In p pts -> f p <= m
  end.

Lemma least_snoc f pts b p : least f pts b -> least f (pts ++ [p]) (min_with b (f p)).
Proof.
  destruct b as [m|]; cbn.
  - intros ((p0 & Hin & E) & L). unfold Rltb. destruct (Rlt_dec (f p) m) as [G|G]; cbn; split.
    + exists p. split; [apply in_or_app; right; left; reflexivity|reflexivity].
    + intros q Hq. apply in_app_or in Hq. destruct Hq as [Hq|[->|[]]]; [specialize (L q Hq); lra|lra].
    + exists p0. split; [apply in_or_app; left; exact Hin|exact E].
    + intros q Hq. apply in_app_or in Hq. destruct Hq as [Hq|[->|[]]]; [exact (L q Hq)|lra].
  - intros ->. cbn. split; [exists p; auto|]. intros q [->|[]]. lra.
Qed.
Lemma greatest_snoc f pts b p : greatest f pts b -> greatest f (pts ++ [p]) (max_with b (f p)).
Proof.
  destruct b as [m|]; cbn.
  - intros ((p0 & Hin & E) & L). unfold Rltb. destruct (Rlt_dec m (f p)) as [G|G]; cbn; split.
    + exists p. split; [apply in_or_app; right; left; reflexivity|reflexivity].
    + intros q Hq. apply in_app_or in Hq. destruct Hq as [Hq|[->|[]]]; [specialize (L q Hq); lra|lra].
    + exists p0. split; [apply in_or_app; left; exact Hin|exact E].
    + intros q Hq. apply in_app_or in Hq. destruct Hq as [Hq|[->|[]]]; [exact (L q Hq)|lra].
  - intros ->. cbn. split; [exists p; auto|]. intros q [->|[]]. lra.
Qed.

Definition add_edges {T} {O : Ops T} (es : list (V2 T * V2 T)) : SvgWriter T :=
  fold_left (fun w e => add_edge w (fst e) (snd e)) es svg_new.

Definition raw_seg {T} (e : V2 T * V2 T) : (T * T) * (T * T) :=
  ((px (fst e), py (fst e)), (px (snd e), py (snd e))).

Lemma add_edges_inv (es : list (V2 R * V2 R)) :
  let w := add_edges es in
  sw_segs w = map raw_seg es /\
  least px (endpoints es) (sw_xmin w) /\ greatest px (endpoints es) (sw_xmax w) /\
  least py (endpoints es) (sw_ymin w) /\ greatest py (endpoints es) (sw_ymax w).
Proof.
  cbv zeta. unfold add_edges. induction es as [|e es IH] using rev_ind; [cbn; auto 10|].
  rewrite fold_left_app. cbn [fold_left]. destruct IH as (E & L1 & G1 & L2 & G2).
  set (w := fold_left _ es svg_new) in *. unfold add_edge. cbn [sw_segs sw_xmin sw_xmax sw_ymin sw_ymax].
  assert (A : endpoints (es ++ [e]) = ((endpoints es ++ [fst e]) ++ [snd e])%list).
  { unfold endpoints. rewrite flat_map_app. cbn. rewrite <- app_assoc. reflexivity. }
  rewrite A, map_app, E. cbn [map]. split; [reflexivity|].
  repeat split; repeat first [apply least_snoc|apply greatest_snoc]; assumption.
Qed.

Lemma C57_lemma (es : list (V2 R * V2 R)) :
  (exists a b, In a (endpoints es) /\ In b (endpoints es) /\ px a <> px b) ->
  (exists a b, In a (endpoints es) /\ In b (endpoints es) /\ py a <> py b) ->
  exists s x0 y0,
    let draw := fun p : V2 R => (s * (px p - x0) + 5, s * (py p - y0) + 5) in
    svg_save (fold_left (fun w e => add_edge w (fst e) (snd e)) es svg_new)
      = Some (map (fun e => (draw (fst e), draw (snd e))) es) /\
    0 < s /\
    (forall p, In p (endpoints es) ->
       5 <= fst (draw p) <= 295 /\ 5 <= snd (draw p) <= 195) /\
    (exists p, In p (endpoints es) /\ fst (draw p) = 5) /\
    (exists p, In p (endpoints es) /\ snd (draw p) = 5) /\
    (exists p, In p (endpoints es) /\ (fst (draw p) = 295 \/ snd (draw p) = 195)).
Proof.
  intros (a & b & Ha & Hb & Nx) (a' & b' & Ha' & Hb' & Ny).
  destruct (add_edges_inv es) as (E & L1 & G1 & L2 & G2). unfold add_edges in *.
  set (w := fold_left _ es svg_new) in *. unfold svg_save.
  destruct (sw_xmin w) as [xmin|]; cbn [least] in L1; [|rewrite L1 in Ha; contradiction].
  destruct (sw_xmax w) as [xmax|]; cbn [greatest] in G1; [|rewrite G1 in Ha; contradiction].
  destruct (sw_ymin w) as [ymin|]; cbn [least] in L2; [|rewrite L2 in Ha; contradiction].
  destruct (sw_ymax w) as [ymax|]; cbn [greatest] in G2; [|rewrite G2 in Ha; contradiction].
  destruct L1 as ((p1 & I1 & E1) & L1), G1 as ((p2 & I2 & E2) & G1),
    L2 as ((p3 & I3 & E3) & L2), G2 as ((p4 & I4 & E4) & G2).
  assert (Dx : 0 < xmax - xmin).
  { pose proof (L1 a Ha). pose proof (L1 b Hb). pose proof (G1 a Ha). pose proof (G1 b Hb).
    destruct (Rtotal_order (px a) (px b)) as [|[|]]; [lra|contradiction|lra]. }
  assert (Dy : 0 < ymax - ymin).
  { pose proof (L2 a' Ha'). pose proof (L2 b' Hb'). pose proof (G2 a' Ha'). pose proof (G2 b' Hb').
    destruct (Rtotal_order (py a') (py b')) as [|[|]]; [lra|contradiction|lra]. }
  cbn [bind]. rewrite E.
  set (sx := ((o_lit 300%Z 0%Z - o_two * o_lit 5%Z 0%Z) / (xmax - xmin))%S).
  set (sy := ((o_lit 200%Z 0%Z - o_two * o_lit 5%Z 0%Z) / (ymax - ymin))%S).
  assert (Sx : sx * (xmax - xmin) = 290) by (unfold sx; cbn; field; lra).
  assert (Sy : sy * (ymax - ymin) = 190) by (unfold sy; cbn; field; lra).
  assert (Px : 0 < sx) by (apply (Rmult_lt_reg_r (xmax - xmin)); lra).
  assert (Py : 0 < sy) by (apply (Rmult_lt_reg_r (ymax - ymin)); lra).
  set (s := if Rlt_dec sy sx then sy else sx).
  assert (Ps : 0 < s) by (unfold s; destruct (Rlt_dec sy sx); assumption).
  assert (Bx : s <= sx) by (unfold s; destruct (Rlt_dec sy sx); lra).
  assert (By : s <= sy) by (unfold s; destruct (Rlt_dec sy sx); lra).
  exists s, xmin, ymin. cbv zeta. cbn [fst snd]. split; [|split; [exact Ps|split; [|split; [|split]]]].
  - change (o_ltb sy sx) with (if Rlt_dec sy sx then true else false).
    assert (K : (if if Rlt_dec sy sx then true else false then (sy, sy) else (sx, sx)) = (s, s))
      by (unfold s; destruct (Rlt_dec sy sx); reflexivity).
    rewrite K. f_equal. rewrite map_map. apply map_ext. intros [[x1 y1] [x2 y2]].
    unfold raw_seg. cbn [fst snd px py]. cbn. apply f_equal2; apply f_equal2; ring.
  - intros p Hp. pose proof (L1 p Hp). pose proof (G1 p Hp). pose proof (L2 p Hp). pose proof (G2 p Hp).
    assert (s * (px p - xmin) <= sx * (xmax - xmin)) by (apply Rmult_le_compat; lra).
    assert (s * (py p - ymin) <= sy * (ymax - ymin)) by (apply Rmult_le_compat; lra).
    assert (0 <= s * (px p - xmin)) by (apply Rmult_le_pos; lra).
    assert (0 <= s * (py p - ymin)) by (apply Rmult_le_pos; lra). lra.
  - exists p1. split; [exact I1|]. rewrite E1. ring.
  - exists p3. split; [exact I3|]. rewrite E3. ring.
  - unfold s. destruct (Rlt_dec sy sx).
    + exists p4. split; [exact I4|]. right. rewrite E4, Sy. ring.
    + exists p2. split; [exact I2|]. left. rewrite E2, Sx. ring.
Qed.

(** ** Wireframes *)
Section W.
Context {T : Type} {O : Ops T}.

Lemma wire_edges_ok (pix : list (V2 T)) edges :
  Forall (fun e => (fst e < length pix)%nat /\ (snd e < length pix)%nat) edges ->
  exists es, wire_edges pix edges = Some (add_edges es) /\
    Forall2 (fun e s => nth_error pix (fst e) = Some (fst s) /\ nth_error pix (snd e) = Some (snd s)) edges es.
Proof.
  unfold wire_edges, add_edges. intros H.
  assert (G : exists es, Forall2 (fun e s => nth_error pix (fst e) = Some (fst s) /\ nth_error pix (snd e) = Some (snd s)) edges es).
  { induction H as [|e edges [H1 H2] H (es & IH)]; [exists []; constructor|].
    apply nth_error_Some in H1, H2.
    destruct (nth_error pix (fst e)) as [p|] eqn:E1; [|congruence].
    destruct (nth_error pix (snd e)) as [q|] eqn:E2; [|congruence].
    exists ((p, q) :: es). constructor; [auto|exact IH]. }
  destruct G as (es & F). exists es. split; [|exact F].
  generalize (svg_new (T := T)). induction F as [|e s edges es [E1 E2] F IH]; intros w; [reflexivity|].
  cbn [fold_left bind]. rewrite E1. cbn [bind]. rewrite E2. cbn [bind]. apply IH. inversion H. assumption.
Qed.

Lemma fold_none {A St} (f : St -> A -> option St) l :
  fold_left (fun w e => w' <- w ;; f w' e) l None = None.
Proof. induction l; auto. Qed.

Lemma wire_edges_panic (pix : list (V2 T)) edges e : In e edges ->
  (length pix <= fst e)%nat \/ (length pix <= snd e)%nat -> wire_edges pix edges = None.
Proof.
  intros Hin H. unfold wire_edges. generalize (Some (svg_new (T := T))).
  induction edges as [|e' edges IH]; [contradiction|]. intros o. cbn [fold_left].
  destruct Hin as [->|Hin]; [|apply IH, Hin].
  assert (E : (w <- o ;; pt0 <- nth_error pix (fst e) ;; pt1 <- nth_error pix (snd e) ;; Some (add_edge w pt0 pt1)) = None).
  { destruct o; [|reflexivity]. cbn. destruct H as [H|H]; apply nth_error_None in H; rewrite H; [reflexivity|].
    destruct (nth_error pix (fst e)); reflexivity. }
  rewrite E. apply (fold_none (fun w e => pt0 <- nth_error pix (fst e) ;; pt1 <- nth_error pix (snd e) ;; Some (add_edge w pt0 pt1))).
Qed.

Lemma render_lemma {I} {HI : IntrinsicParameters T I} (cam : Camera T I) (verts : list (V3 T))
    (edges : list (nat * nat)) (pix : list (V2 T)) :
  world_to_pixel cam (mkPoints verts) = Some (mkPixels pix) -> length pix = length verts ->
  (render_wireframe (mkPoints verts) edges cam = None <-> exists e, In e edges /\ dangling verts e) /\
  (forall w, render_wireframe (mkPoints verts) edges cam = Some w -> Forall2 (joins pix) edges (sw_segs w)).
Proof.
  intros E L. unfold render_wireframe. rewrite E. cbn [bind pix_data]. unfold dangling. rewrite <- L.
  destruct (Forall_Exists_dec (fun e : nat * nat => (fst e < length pix)%nat /\ (snd e < length pix)%nat)) with (l := edges) as [F|X].
  { intros e. destruct (lt_dec (fst e) (length pix)), (lt_dec (snd e) (length pix)); tauto. }
  - destruct (wire_edges_ok pix edges F) as (es & Ew & F2). rewrite Ew. split.
    + split; [discriminate|]. intros (e & Hin & H). rewrite Forall_forall in F. specialize (F e Hin). lia.
    + intros w Hw. injection Hw as <-. clear -F2.
      assert (S : sw_segs (add_edges es) = map raw_seg es).
      { unfold add_edges. clear. induction es as [|e es IH] using rev_ind; [reflexivity|].
        rewrite fold_left_app, map_app. cbn [fold_left add_edge sw_segs map]. rewrite <- IH. reflexivity. }
      rewrite S. clear S. induction F2 as [|e s edges es [E1 E2] F IH]; cbn; constructor; [|exact IH].
      exists (fst s), (snd s). auto.
  - apply Exists_exists in X. destruct X as (e & Hin & H).
    assert (P : wire_edges pix edges = None) by (apply (wire_edges_panic pix edges e Hin); lia).
    rewrite P. split; [|discriminate]. split; [|reflexivity]. intros _. exists e. split; [exact Hin|lia].
Qed.

Lemma C65_lemma (verts : list (V3 T)) (edges : list (nat * nat)) (e : ExtrinsicParameters T) :
  (forall k : IntrinsicParametersPerspective T,
    (render_wireframe (mkPoints verts) edges (camera_new k e) = None <-> exists e, In e edges /\ dangling verts e) /\
    (forall w, render_wireframe (mkPoints verts) edges (camera_new k e) = Some w ->
       exists pix, world_to_pixel (camera_new k e) (mkPoints verts) = Some pix /\
         Forall2 (joins (pix_data pix)) edges (sw_segs w))) /\
  (forall k : IntrinsicParametersOrthographic T,
    (render_wireframe (mkPoints verts) edges (camera_new k e) = None <-> exists e, In e edges /\ dangling verts e) /\
    (forall w, render_wireframe (mkPoints verts) edges (camera_new k e) = Some w ->
       exists pix, world_to_pixel (camera_new k e) (mkPoints verts) = Some pix /\
         Forall2 (joins (pix_data pix)) edges (sw_segs w))).
Proof.
  destruct (batch_total_lemma (T := T)) as (_ & _ & _ & _ & A & B & _).
  split; intros k; [destruct (A k e) as (P & _)|destruct (B k e) as (P & _)]; destruct (P verts) as (pix & E & L);
    (destruct (world_to_pixel (camera_new k e) (mkPoints verts)) as [[d]|] eqn:W; [|discriminate]);
    cbn in E; injection E as ->; destruct (render_lemma _ verts edges pix W L) as (R1 & R2);
    (split; [exact R1|]); intros w Hw; exists (mkPixels pix); (split; [reflexivity|apply R2, Hw]).
Qed.
End W.
