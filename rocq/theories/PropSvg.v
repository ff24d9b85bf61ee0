(** * PropSvg.v - property theorems C57, C65 *)

From Coq Require Import List Arith Lia Reals Lra.
From Verif Require Import Scalar Linalg Bundles Extrinsics Perspective Orthographic Camera Svg Spec SpecSvg RealBase SvgProofs.
Import ListNotations.
Local Open Scope R_scope.

(** C57: the drawing is a scaled copy (the same scale for x and y) which lies inside the canvas less its border, touches the left and top borders, and is as large as it can be. *)
Theorem C57_drawing_inside_canvas (es : list (V2 R * V2 R)) :
  (exists a b, In a (endpoints es) /\ In b (endpoints es) /\ px a <> px b) ->
  (exists a b, In a (endpoints es) /\ In b (endpoints es) /\ py a <> py b) ->
  exists s x0 y0,
    let draw := fun p : V2 R => (s * (px p - x0) + 5, s * (py p - y0) + 5) in
    svg_save (fold_left (fun w e => add_edge w (fst e) (snd e)) es svg_new)
      = Some (map (fun e => (draw (fst e), draw (snd e))) es) /\
    0 < s /\
    (forall p, In p (endpoints es) ->
       5 <= fst (draw p) <= 295 /\ 5 <= snd (draw p) <= 195) /\
    (exists p, In p (endpoints es) /\ fst (draw p) = 5) /\
    (exists p, In p (endpoints es) /\ snd (draw p) = 5) /\
    (exists p, In p (endpoints es) /\ (fst (draw p) = 295 \/ snd (draw p) = 195)).
Proof. exact (C57_lemma es). Qed.
Print Assumptions C57_drawing_inside_canvas.

(** a triangle, drawn with scale 19 *)
Example C57_case :
  let es := [(mkV2 1 2, mkV2 11 2); (mkV2 11 2, mkV2 1 12)]%R in
  exists s x0 y0, svg_save (add_edge (add_edge svg_new (mkV2 1 2) (mkV2 11 2)) (mkV2 11 2) (mkV2 1 12))%R
    = Some [((s * (1 - x0) + 5, s * (2 - y0) + 5), (s * (11 - x0) + 5, s * (2 - y0) + 5));
            ((s * (11 - x0) + 5, s * (2 - y0) + 5), (s * (1 - x0) + 5, s * (12 - y0) + 5))]%R /\ s = 19%R.
Proof.
  intros es.
  destruct (C57_drawing_inside_canvas es) as (s & x0 & y0 & E & Ps & B & (p & Hp & Ep) & (q & Hq & Eq) & (r & Hr & Er)).
  - exists (mkV2 1 2)%R, (mkV2 11 2)%R. cbn. repeat split; auto. lra.
  - exists (mkV2 11 2)%R, (mkV2 1 12)%R. cbn. repeat split; auto. lra.
  - exists s, x0, y0. split; [exact E|].
    pose proof (B (mkV2 1 2)%R ltac:(cbn; auto)) as B1. pose proof (B (mkV2 11 2)%R ltac:(cbn; auto)) as B2.
    pose proof (B (mkV2 1 12)%R ltac:(cbn; auto)) as B3. clear B E.
    cbn [fst snd px py] in *.
    assert (X0 : x0 = 1%R).
    { cbn in Hp. destruct Hp as [<-|[<-|[<-|[<-|[]]]]]; cbn [px py] in Ep; nra. }
    assert (Y0 : y0 = 2%R).
    { cbn in Hq. destruct Hq as [<-|[<-|[<-|[<-|[]]]]]; cbn [px py] in Eq; nra. }
    subst x0 y0. cbn in Hr. destruct Hr as [<-|[<-|[<-|[<-|[]]]]]; cbn [px py] in Er; lra.
Qed.

(** C65: any scalar type: the wireframe renderer panics exactly when an edge names a vertex which does not exist; otherwise the segments join the projections of the named vertices, in the order of the edges. *)
Theorem C65_wireframe {T} {O : Ops T} (verts : list (V3 T)) (edges : list (nat * nat)) (e : ExtrinsicParameters T) :
  (forall k : IntrinsicParametersPerspective T,
    (render_wireframe (mkPoints verts) edges (camera_new k e) = None <-> exists e, In e edges /\ dangling verts e) /\
    (forall w, render_wireframe (mkPoints verts) edges (camera_new k e) = Some w ->
       exists pix, world_to_pixel (camera_new k e) (mkPoints verts) = Some pix /\
         Forall2 (joins (pix_data pix)) edges (sw_segs w))) /\
  (forall k : IntrinsicParametersOrthographic T,
    (render_wireframe (mkPoints verts) edges (camera_new k e) = None <-> exists e, In e edges /\ dangling verts e) /\
    (forall w, render_wireframe (mkPoints verts) edges (camera_new k e) = Some w ->
       exists pix, world_to_pixel (camera_new k e) (mkPoints verts) = Some pix /\
         Forall2 (joins (pix_data pix)) edges (sw_segs w))).
Proof. exact (C65_lemma verts edges e). Qed.
Print Assumptions C65_wireframe.

(** the cube of the example is drawn, an edge to a ninth vertex panics *)
Example C65_case {T} {O : Ops T} (k : IntrinsicParametersPerspective T) (e : ExtrinsicParameters T) :
  (exists w, render_wireframe (mkPoints cube_verts) cube_edges (camera_new k e) = Some w /\ length (sw_segs w) = 12%nat) /\
  render_wireframe (mkPoints cube_verts) (cube_edges ++ [(7, 8)%nat]) (camera_new k e) = None.
Proof.
  destruct (C65_wireframe cube_verts cube_edges e) as (H & _). destruct (H k) as (N & S). split.
  - destruct (render_wireframe _ _ _) as [w|] eqn:E.
    + exists w. split; [reflexivity|]. destruct (S w eq_refl) as (pix & _ & F). clear - F.
      assert (G : length (cube_edges) = length (sw_segs w)) by (induction F; cbn; congruence). now rewrite <- G.
    + destruct (proj1 N eq_refl) as (e0 & Hin & D). exfalso. cbn in Hin. unfold dangling in D. cbn [length cube_verts] in D.
      repeat (destruct Hin as [<-|Hin]; [cbn in D; lia|]). exact Hin.
  - destruct (C65_wireframe cube_verts (cube_edges ++ [(7, 8)%nat]) e) as (H' & _). apply (proj1 (H' k)).
    exists (7, 8)%nat. split; [apply in_or_app; right; left; reflexivity|]. right. cbn. lia.
Qed.

