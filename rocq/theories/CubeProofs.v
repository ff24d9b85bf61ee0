(** * CubeProofs.v - the program render-cube (C96) *)

From Coq Require Import List ZArith Reals Lra Lia Bool.
From Flocq Require Import Core BinarySingleNaN.
From Verif Require Import Scalar Linalg Bundles Extrinsics Perspective Orthographic Camera Svg Examples
  Spec SpecGeom SpecSvg SpecFloatErr Rows RealBase VecLemmas ExtrinsicsProofs FromViewProofs IntrinsicsProofs CamMatProofs CameraProofs GeomProofs SvgProofs.
Import ListNotations.
Local Open Scope R_scope.
Local Notation frc := from_rotation_and_camcenter.

Definition corners : list (V3 R) :=
  [mkV3 (-1) (-1) (-1); mkV3 1 (-1) (-1); mkV3 1 1 (-1); mkV3 (-1) 1 (-1);
   mkV3 (-1) (-1) 1; mkV3 1 (-1) 1; mkV3 1 1 1; mkV3 (-1) 1 1].
Lemma cube_corners : @cube_verts R R_ops = corners.
Proof. unfold cube_verts, corners. cbv zeta. ru. replace (-1 * 1) with (-1) by ring. reflexivity. Qed.

Lemma V3_ne (a b : V3 R) : vx a <> vx b \/ vy a <> vy b \/ vz a <> vz b -> a <> b.
Proof. intros H E. subst. tauto. Qed.
Lemma C96_vertices_lemma :
  (forall v : V3 R, In v cube_verts <-> (vx v = 1 \/ vx v = -1) /\ (vy v = 1 \/ vy v = -1) /\ (vz v = 1 \/ vz v = -1)) /\
  NoDup (@cube_verts R R_ops).
Proof.
  rewrite cube_corners. split.
  - intros [x y z]. cbn [vx vy vz]. split.
    + intros H. unfold corners in H. cbn [In] in H. repeat (destruct H as [H|H]; [injection H as <- <- <-; auto 10|]). contradiction.
    + intros ([-> | ->] & [-> | ->] & [-> | ->]); cbn; auto 10.
  - unfold corners. repeat constructor; cbn [In]; intros H;
      repeat (destruct H as [H|H]; [injection H as ?; lra|]); contradiction.
Qed.
Lemma dist2 (a b : V3 R) d : 0 <= d -> (vdist a b = d <-> (vx a - vx b) * (vx a - vx b) + (vy a - vy b) * (vy a - vy b) + (vz a - vz b) * (vz a - vz b) = d * d).
Proof.
  intros D. replace ((vx a - vx b) * (vx a - vx b) + (vy a - vy b) * (vy a - vy b) + (vz a - vz b) * (vz a - vz b)) with (vdist a b * vdist a b).
  - split; [now intros ->|]. intros H. apply Rsqr_inj; [apply vlen_nonneg|exact D|exact H].
  - unfold vdist. rewrite vlen_sq. ru_spec. ring.
Qed.
Lemma C96_edges_lemma :
  length cube_edges = 12%nat /\
  (forall i j a b, nth_error (@cube_verts R R_ops) i = Some a -> nth_error (@cube_verts R R_ops) j = Some b ->
     (In (i, j) cube_edges \/ In (j, i) cube_edges <-> vdist a b = 2)).
Proof.
  split; [reflexivity|]. rewrite cube_corners. intros i j a b Ha Hb. rewrite dist2 by lra.
  assert (Bi : (i < 8)%nat) by (change 8%nat with (length corners); apply nth_error_Some; congruence).
  assert (Bj : (j < 8)%nat) by (change 8%nat with (length corners); apply nth_error_Some; congruence).
  do 8 (destruct i as [|i]; [do 8 (destruct j as [|j];
    [cbn in Ha, Hb; injection Ha as <-; injection Hb as <-; cbn [vx vy vz]; split;
      [cbn; intros H; first [lra|exfalso; repeat match goal with H : _ \/ _ |- _ => destruct H as [H|H] end; try discriminate; contradiction]
      |intros H; first [exfalso; lra|cbn; auto 20]]|]); exfalso; lia|]).
  exfalso; lia.
Qed.

(** The scene is drawn by any camera which does not show all vertices in one column or row. *)
Section Scene.
Context {I : Type} {HI : IntrinsicParameters R I}.
Definition vert (i : nat) : V3 R := nth i corners vO.
Lemma scene (cam : Camera R I) (f : V3 R -> V2 R) :
  world_to_pixel cam (mkPoints corners) = Some (mkPixels (map f corners)) ->
  (exists a b, In a corners /\ In b corners /\ px (f a) <> px (f b)) ->
  (exists a b, In a corners /\ In b corners /\ py (f a) <> py (f b)) ->
  exists s x0 y0, 0 < s /\ (forall v, In v corners -> 5 <= s * (px (f v) - x0) + 5 <= 295 /\ 5 <= s * (py (f v) - y0) + 5 <= 195) /\
    (w <- render_wireframe (mkPoints corners) cube_edges cam ;; svg_save w)
    = Some (map (fun e => ((s * (px (f (vert (fst e))) - x0) + 5, s * (py (f (vert (fst e))) - y0) + 5),
                           (s * (px (f (vert (snd e))) - x0) + 5, s * (py (f (vert (snd e))) - y0) + 5))) cube_edges).
Proof.
  intros W (a & b & Ia & Ib & Nx) (a' & b' & Ia' & Ib' & Ny).
  set (es := map (fun e : nat * nat => (f (vert (fst e)), f (vert (snd e)))) cube_edges).
  assert (E : wire_edges (map f corners) cube_edges = Some (fold_left (fun w e => add_edge w (fst e) (snd e)) es svg_new)) by reflexivity.
  assert (J : forall v, In v corners -> In (f v) (endpoints es)).
  { intros v H. unfold corners in H. cbn [In] in H. unfold es, vert, corners. cbn.
    repeat (destruct H as [H|H]; [subst v; auto 30|]). contradiction. }
  destruct (C57_lemma es) as (s & x0 & y0 & S & P & B & _).
  { exists (f a), (f b). auto. }
  { exists (f a'), (f b'). auto. }
  exists s, x0, y0. split; [exact P|]. split.
  - intros v Hv. exact (B (f v) (J v Hv)).
  - unfold render_wireframe. rewrite W. cbn [bind pix_data]. rewrite E. cbn [bind]. rewrite S. reflexivity.
Qed.
End Scene.

(** rows of a rotation *)
Lemma rot_rows q : unit_quat q -> let m := rotm q in
  m00 m * m00 m + m01 m * m01 m + m02 m * m02 m = 1 /\ m10 m * m10 m + m11 m * m11 m + m12 m * m12 m = 1 /\
  m00 m * m20 m + m01 m * m21 m + m02 m * m22 m = 0 /\ m10 m * m20 m + m11 m * m21 m + m12 m * m22 m = 0.
Proof.
  intros U m. assert (O : mm m (mtr m) = mI) by (destruct (rotm_orthogonal q U); assumption).
  destruct m as [a b c d e f g h i]. pose proof (M33_inv _ _ O) as M. revert M. ru_spec. intros M. lra.
Qed.
Lemma not_all_equal (f : V3 R -> R) : ~ (forall v, In v corners -> f v = f (mkV3 (-1) (-1) (-1))) ->
  exists a b, In a corners /\ In b corners /\ f a <> f b.
Proof.
  intros H. set (v0 := mkV3 (-1) (-1) (-1)) in *.
  assert (G : forall l, (exists a, In a l /\ f a <> f v0) \/ forall v, In v l -> f v = f v0).
  { induction l as [|v l [(a & Ia & N)|IH]]; [right; intros v []|left; exists a; split; [now right|exact N]|].
    destruct (Req_dec (f v) (f v0)) as [E|N]; [right; intros x [->|Hx]; auto|left; exists v; split; [now left|exact N]]. }
  destruct (G corners) as [(a & Ia & N)|A]; [|contradiction]. exists a, v0. repeat split; auto. now left.
Qed.
Lemma affine_corners (A B C D : R) : (forall v, In v corners -> A * vx v + B * vy v + C * vz v + D = 0) -> A = 0 /\ B = 0 /\ C = 0.
Proof.
  intros H. pose proof (H (mkV3 (-1) (-1) (-1)) ltac:(cbn; auto 10)) as H0. pose proof (H (mkV3 1 (-1) (-1)) ltac:(cbn; auto 10)) as H1.
  pose proof (H (mkV3 (-1) 1 (-1)) ltac:(cbn; auto 10)) as H2. pose proof (H (mkV3 (-1) (-1) 1) ltac:(cbn; auto 10)) as H3.
  cbn in *. lra.
Qed.
Lemma persp_spread k q c : unit_quat q -> pp_fx k <> 0 -> pp_fy k <> 0 -> pp_skew k = 0 -> (forall v, In v corners -> vz (to_camera q c v) <> 0) ->
  (exists a b, In a corners /\ In b corners /\ px (persp_pixel k (to_camera q c a)) <> px (persp_pixel k (to_camera q c b))) /\
  (exists a b, In a corners /\ In b corners /\ py (persp_pixel k (to_camera q c a)) <> py (persp_pixel k (to_camera q c b))).
Proof.
  intros U Fx Fy Sk Z. destruct (rot_rows q U) as (R1 & R2 & R3 & R4). set (v0 := mkV3 (-1) (-1) (-1)).
  split; apply (not_all_equal (fun v => _ (persp_pixel k (to_camera q c v)))); intros H.
  - set (t := vx (to_camera q c v0) / vz (to_camera q c v0)).
    assert (E : forall v, In v corners -> vx (to_camera q c v) - t * vz (to_camera q c v) = 0).
    { intros v Hv. specialize (H v Hv). specialize (Z v Hv). unfold persp_pixel in H. cbn [px] in H. rewrite Sk in H. fold v0 in H.
      assert (Q : vx (to_camera q c v) / vz (to_camera q c v) = t). { unfold t. unfold Rdiv in *. apply (Rmult_eq_reg_l (pp_fx k)); [lra|exact Fx]. }
      rewrite <- Q. field. exact Z. }
    set (m := rotm q) in *.
    destruct (affine_corners (m00 m - t * m20 m) (m01 m - t * m21 m) (m02 m - t * m22 m)
      (- (m00 m - t * m20 m) * vx c - (m01 m - t * m21 m) * vy c - (m02 m - t * m22 m) * vz c)) as (A & B & C).
    { intros v Hv. rewrite <- (E v Hv). unfold to_camera. fold m. destruct m, v, c. ru_spec. ring. }
    replace (m00 m) with (t * m20 m) in R1, R3 by lra. replace (m01 m) with (t * m21 m) in R1, R3 by lra. replace (m02 m) with (t * m22 m) in R1, R3 by lra.
    replace (t * m20 m * (t * m20 m) + t * m21 m * (t * m21 m) + t * m22 m * (t * m22 m)) with (t * (t * m20 m * m20 m + t * m21 m * m21 m + t * m22 m * m22 m)) in R1 by ring.
    rewrite R3 in R1. lra.
  - set (t := vy (to_camera q c v0) / vz (to_camera q c v0)).
    assert (E : forall v, In v corners -> vy (to_camera q c v) - t * vz (to_camera q c v) = 0).
    { intros v Hv. specialize (H v Hv). specialize (Z v Hv). unfold persp_pixel in H. cbn [py] in H. fold v0 in H.
      assert (Q : vy (to_camera q c v) / vz (to_camera q c v) = t). { unfold t. unfold Rdiv in *. apply (Rmult_eq_reg_l (pp_fy k)); [lra|exact Fy]. }
      rewrite <- Q. field. exact Z. }
    set (m := rotm q) in *.
    destruct (affine_corners (m10 m - t * m20 m) (m11 m - t * m21 m) (m12 m - t * m22 m)
      (- (m10 m - t * m20 m) * vx c - (m11 m - t * m21 m) * vy c - (m12 m - t * m22 m) * vz c)) as (A & B & C).
    { intros v Hv. rewrite <- (E v Hv). unfold to_camera. fold m. destruct m, v, c. ru_spec. ring. }
    replace (m10 m) with (t * m20 m) in R2, R4 by lra. replace (m11 m) with (t * m21 m) in R2, R4 by lra. replace (m12 m) with (t * m22 m) in R2, R4 by lra.
    replace (t * m20 m * (t * m20 m) + t * m21 m * (t * m21 m) + t * m22 m * (t * m22 m)) with (t * (t * m20 m * m20 m + t * m21 m * m21 m + t * m22 m * m22 m)) in R2 by ring.
    rewrite R4 in R2. lra.
Qed.
Lemma ortho_spread k q c : unit_quat q -> op_sx k <> 0 -> op_sy k <> 0 ->
  (exists a b, In a corners /\ In b corners /\ px (ortho_pixel k (to_camera q c a)) <> px (ortho_pixel k (to_camera q c b))) /\
  (exists a b, In a corners /\ In b corners /\ py (ortho_pixel k (to_camera q c a)) <> py (ortho_pixel k (to_camera q c b))).
Proof.
  intros U Fx Fy. destruct (rot_rows q U) as (R1 & R2 & _). set (v0 := mkV3 (-1) (-1) (-1)). set (m := rotm q) in *.
  split; apply (not_all_equal (fun v => _ (ortho_pixel k (to_camera q c v)))); intros H; fold v0 in H.
  - destruct (affine_corners (m00 m) (m01 m) (m02 m) (- m00 m * vx c - m01 m * vy c - m02 m * vz c - vx (to_camera q c v0))) as (A & B & C).
    { intros v Hv. specialize (H v Hv). unfold ortho_pixel in H. cbn [px] in H.
      assert (Q : vx (to_camera q c v) = vx (to_camera q c v0)) by (apply (Rmult_eq_reg_l (op_sx k)); [lra|exact Fx]).
      rewrite <- Q. unfold to_camera. fold m. destruct m, v, c. ru_spec. ring. }
    rewrite A, B, C in R1. lra.
  - destruct (affine_corners (m10 m) (m11 m) (m12 m) (- m10 m * vx c - m11 m * vy c - m12 m * vz c - vy (to_camera q c v0))) as (A & B & C).
    { intros v Hv. specialize (H v Hv). unfold ortho_pixel in H. cbn [py] in H.
      assert (Q : vy (to_camera q c v) = vy (to_camera q c v0)) by (apply (Rmult_eq_reg_l (op_sy k)); [lra|exact Fy]).
      rewrite <- Q. unfold to_camera. fold m. destruct m, v, c. ru_spec. ring. }
    rewrite A, B, C in R2. lra.
Qed.

Lemma two_files {A B} (r1 r2 : option A) (save : A -> option B) f1 f2 : (w <- r1 ;; save w) = Some f1 -> (w <- r2 ;; save w) = Some f2 ->
  (w <- r1 ;; x <- save w ;; w' <- r2 ;; y <- save w' ;; Some (x, y)) = Some (f1, f2).
Proof. destruct r1, r2; cbn; try discriminate. intros -> ->. reflexivity. Qed.
Lemma C96_drawn_lemma : exists q sp xp yp so xo yo,
  let c := mkV3 10 3 5 in
  let e := from_view c (mkV3 0 0 0) (mkV3 0 0 1) in
  let pinhole y := mkV2 (100 * vx y / vz y + 640) (100 * vy y / vz y + 480) in
  let parallel y := mkV2 (100 * vx y + 321) (102 * vy y + 8440730864110797 * / 2 ^ 45) in
  let draw s x0 y0 (p : V2 R) := (s * (px p - x0) + 5, s * (py p - y0) + 5) in
  let seen f (i : nat) := f (to_camera q c (nth i cube_verts vO)) in
  unit_quat q /\ e = frc q c /\ 0 < sp /\ 0 < so /\
  (forall v, In v cube_verts -> 0 < depth q c v) /\
  main_render_cube = Some
    (map (fun e => (draw sp xp yp (seen pinhole (fst e)), draw sp xp yp (seen pinhole (snd e)))) cube_edges,
     map (fun e => (draw so xo yo (seen parallel (fst e)), draw so xo yo (seen parallel (snd e)))) cube_edges) /\
  (forall v, In v cube_verts -> let '(x, y) := draw sp xp yp (pinhole (to_camera q c v)) in in_rect (mkV2 5 5) (mkV2 295 195) (mkV2 x y)) /\
  (forall v, In v cube_verts -> let '(x, y) := draw so xo yo (parallel (to_camera q c v)) in in_rect (mkV2 5 5) (mkV2 295 195) (mkV2 x y)).
Proof.
  assert (L : forall z, @o_lit R R_ops z 0 = IZR z) by (intros z; cbn; ring).
  set (c := mkV3 10 3 5). set (u := vunit (mkV3 0 0 1)).
  assert (Eu : u = mkV3 0 0 1) by (apply vunit_id; ru_spec; ring).
  assert (H1 : mkV3 0 0 0 <> c) by (intros E; apply V3_inv in E; lra).
  assert (H2 : vcross u (vsub (mkV3 0 0 0) c) <> vO).
  { rewrite Eu. unfold vcross, vsub, vO, c. cbn. intros E. apply V3_inv in E. lra. }
  destruct (from_view_R o_pi64 c (mkV3 0 0 0) u H1 H2) as (q & E & U & Fw & _).
  set (kp := mkPP 100 100 0 640 480 : PerspectiveParams R). set (ko := mkOP 100 102 321 (o_lit 8440730864110797%Z (-45)%Z) : OrthographicParams R).
  assert (Cp : get_perspective_cam = camera_new (perspective_from kp) (frc q c)).
  { unfold get_perspective_cam. cbv zeta. rewrite !L, v3_normalize_R. unfold from_view. fold u c. rewrite E. reflexivity. }
  assert (Co : get_ortho_cam = camera_new (orthographic_from ko) (frc q c)).
  { unfold get_ortho_cam. cbv zeta. rewrite !L, v3_normalize_R. unfold from_view. fold u c. rewrite E. reflexivity. }
  assert (D : forall v, In v corners -> 0 < vz (to_camera q c v)).
  { intros v Hv. rewrite depth_forward, forward_R, Fw by exact U. unfold view_dir, vunit.
    assert (K : 0 < vlen (vsub (mkV3 0 0 0) c)). { apply vlen_pos. intros A. apply H1. unfold vsub, c, vO in A. cbn in A. apply V3_inv in A. lra. }
    apply Rinv_0_lt_compat in K. rewrite vdot_vscl_r. apply Rmult_lt_0_compat; [exact K|]. clear -Hv. unfold corners in Hv. cbn [In] in Hv.
    repeat (destruct Hv as [<-|Hv]; [unfold c; ru_spec; lra|]). try contradiction. }
  assert (Wp : world_to_pixel get_perspective_cam (mkPoints corners) = Some (mkPixels (map (fun x => persp_pixel kp (to_camera q c x)) corners))).
  { rewrite Cp. apply world_to_pixel_persp; [exact U|]. apply Forall_forall. intros v Hv. specialize (D v Hv). lra. }
  assert (Wo : world_to_pixel get_ortho_cam (mkPoints corners) = Some (mkPixels (map (fun x => ortho_pixel ko (to_camera q c x)) corners))).
  { rewrite Co. now apply world_to_pixel_ortho. }
  destruct (persp_spread kp q c U) as (Px & Py); [cbn; lra|cbn; lra|reflexivity|intros v Hv; specialize (D v Hv); lra|].
  destruct (ortho_spread ko q c U) as (Ox & Oy); [cbn; lra|cbn; lra|].
  destruct (scene _ _ Wp Px Py) as (sp & xp & yp & Pp & Bp & Rp).
  destruct (scene _ _ Wo Ox Oy) as (so & xo & yo & Po & Bo & Ro).
  assert (Ep : forall y : V3 R, mkV2 (100 * vx y / vz y + 640) (100 * vy y / vz y + 480) = persp_pixel kp y).
  { intros y. unfold persp_pixel, kp. cbn. apply V2_eq; cbn; unfold Rdiv; ring. }
  assert (Eo : forall y : V3 R, mkV2 (100 * vx y + 321) (102 * vy y + 8440730864110797 * / 2 ^ 45) = ortho_pixel ko y) by reflexivity.
  exists q, sp, xp, yp, so, xo, yo. cbv zeta. rewrite cube_corners, <- Eu.
  split; [exact U|]. split; [exact E|]. split; [exact Pp|]. split; [exact Po|]. split; [exact D|]. split; [|split].
  - unfold main_render_cube. cbv zeta. rewrite cube_corners.
    rewrite (two_files _ _ _ _ _ Rp Ro).
    do 2 f_equal. apply map_ext. intros e. now rewrite !Ep.
  - intros v Hv. rewrite Ep. exact (Bp v Hv).
  - intros v Hv. rewrite Eo. exact (Bo v Hv).
Qed.

(** double precision *)
Section F64.
Variables fsin fcos : f64 -> f64.
Local Hint Extern 0 (Ops f64) => exact (f64_ops fsin fcos) : typeclass_instances.
Local Notation num z := (@o_lit f64 (f64_ops fsin fcos) z%Z 0%Z).
Definition inside (p : f64 * f64) : bool :=
  (Bleb (num 5) (fst p) && Bleb (fst p) (num 295) && Bleb (num 5) (snd p) && Bleb (snd p) (num 195))%bool.
Definition drawing_ok (l : list ((f64 * f64) * (f64 * f64))) : bool :=
  (Nat.eqb (length l) 12 && forallb (fun e => inside (fst e) && inside (snd e)) l)%bool.
Lemma C96_f64_lemma : fsin (o_pi64 / o_two)%S = o_one -> fcos (o_pi64 / o_two)%S = o_lit 4967757600021511%Z (-106)%Z ->
  match main_render_cube with Some (f1, f2) => drawing_ok f1 && drawing_ok f2 | None => false end = true.
Proof.
  intros Hs Hc. unfold main_render_cube, get_perspective_cam, get_ortho_cam, from_view, from_view_with_roll, q_from_axis_angle. cbv zeta.
  change (o_sin (o_pi64 / o_two)%S) with (fsin (o_pi64 / o_two)%S). change (o_cos (o_pi64 / o_two)%S) with (fcos (o_pi64 / o_two)%S).
  rewrite Hs, Hc. vm_compute. reflexivity.
Qed.
Lemma num_R z : (Z.abs z < 2 ^ 53)%Z -> B2R (num z) = IZR z /\ is_finite (num z) = true.
Proof.
  intros H. change (num z) with (binary_normalize 53 1024 f64_prec f64_emax mode_NE z 0 false).
  pose proof (binary_normalize_correct 53 1024 f64_prec f64_emax mode_NE z 0 false) as P. cbv zeta in P.
  replace (F2R (Float radix2 z 0)) with (IZR z) in P by (unfold F2R; cbn; ring).
  rewrite round_generic in P; [|auto with typeclass_instances|].
  - rewrite Rlt_bool_true in P; [destruct P as (P1 & P2 & _); auto|].
    rewrite <- abs_IZR. apply Rlt_le_trans with (bpow radix2 53); [change (bpow radix2 53) with (IZR (2 ^ 53)); now apply IZR_lt|apply bpow_le; lia].
  - apply generic_format_FLT. exists (Float radix2 z 0); [unfold F2R; cbn; ring|exact H|cbn; lia].
Qed.
Lemma inside_R x y : inside (x, y) = true -> is_finite x = true /\ is_finite y = true /\ 5 <= B2R x <= 295 /\ 5 <= B2R y <= 195.
Proof.
  unfold inside. cbn [fst snd]. rewrite !andb_true_iff. intros (((A & B) & C) & D).
  destruct (num_R 5) as (R5 & F5); [reflexivity|]. destruct (num_R 295) as (R295 & F295); [reflexivity|]. destruct (num_R 195) as (R195 & F195); [reflexivity|].
  assert (G : forall a b t : f64, is_finite a = true -> is_finite b = true -> Bleb a t = true -> Bleb t b = true -> is_finite t = true /\ B2R a <= B2R t <= B2R b).
  { intros a b t Fa Fb H1 H2.
    assert (Ft : is_finite t = true).
    { destruct t as [s|s| |s m e Bd]; try reflexivity; exfalso; destruct a as [s'|s'| |s' m' e' B']; try discriminate; destruct b as [t'|t'| |t' n' f' C']; try discriminate;
        first [destruct s; discriminate|destruct s, s', t'; discriminate]. }
    split; [exact Ft|]. rewrite Bleb_correct in H1, H2 by assumption. revert H1 H2. case Rle_bool_spec; [|discriminate]. case Rle_bool_spec; [|discriminate]. lra. }
  destruct (G (num 5) (num 295) x F5 F295 A B) as (Fx & Bx). destruct (G (num 5) (num 195) y F5 F195 C D) as (Fy & By).
  rewrite R5, R295 in Bx. rewrite R5, R195 in By. auto.
Qed.
Lemma C96_f64_statement :
  fsin (o_pi64 / o_two)%S = o_one -> fcos (o_pi64 / o_two)%S = o_lit 4967757600021511%Z (-106)%Z ->
  exists file1 file2 : list ((f64 * f64) * (f64 * f64)), main_render_cube = Some (file1, file2) /\
    forall file, file = file1 \/ file = file2 ->
      length file = 12%nat /\
      forall x1 y1 x2 y2, In ((x1, y1), (x2, y2)) file ->
        forall x y, (x, y) = (x1, y1) \/ (x, y) = (x2, y2) ->
        is_finite x = true /\ is_finite y = true /\ 5 <= B2R x <= 295 /\ 5 <= B2R y <= 195.
Proof.
  intros Hs Hc. pose proof (C96_f64_lemma Hs Hc) as H.
  remember (@main_render_cube f64 (f64_ops fsin fcos)) as r. clear Heqr. destruct r as [(f1 & f2)|]; [|discriminate].
  exists f1, f2. split; [reflexivity|]. apply andb_true_iff in H. destruct H as (H1 & H2).
  assert (G : forall f, drawing_ok f = true -> length f = 12%nat /\ forall x1 y1 x2 y2, In ((x1, y1), (x2, y2)) f ->
        forall x y, (x, y) = (x1, y1) \/ (x, y) = (x2, y2) ->
        is_finite x = true /\ is_finite y = true /\ 5 <= B2R x <= 295 /\ 5 <= B2R y <= 195).
  { intros f H. unfold drawing_ok in H. apply andb_true_iff in H. destruct H as (L & A). split; [now apply Nat.eqb_eq|].
    intros x1 y1 x2 y2 I x y E. rewrite forallb_forall in A. specialize (A _ I). cbn [fst snd] in A. apply andb_true_iff in A.
    apply inside_R. destruct E as [-> | ->]; apply A. }
  intros f [-> | ->]; now apply G.
Qed.
End F64.
