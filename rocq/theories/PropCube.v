(** * PropCube.v - property theorem C96: the program render-cube *)

From Coq Require Import List ZArith Reals Lra.
From Flocq Require Import Core BinarySingleNaN.
From Verif Require Import Scalar Linalg Bundles Extrinsics Perspective Orthographic Camera Svg Examples
  Spec SpecGeom SpecFloatErr RealBase CubeProofs.
Import ListNotations.
Local Open Scope R_scope.

(** C96, the scene: the eight vertices are those of the cube [-1,1]^3, each once; two of them are
    joined by one of the twelve edges exactly when their distance is 2. *)
Theorem C96_vertices :
  (forall v : V3 R, In v cube_verts <-> (vx v = 1 \/ vx v = -1) /\ (vy v = 1 \/ vy v = -1) /\ (vz v = 1 \/ vz v = -1)) /\
  NoDup (@cube_verts R R_ops).
Proof. exact C96_vertices_lemma. Qed.
Print Assumptions C96_vertices.

Theorem C96_edges :
  length cube_edges = 12%nat /\
  (forall i j a b, nth_error (@cube_verts R R_ops) i = Some a -> nth_error (@cube_verts R R_ops) j = Some b ->
     (In (i, j) cube_edges \/ In (j, i) cube_edges <-> vdist a b = 2)).
Proof. exact C96_edges_lemma. Qed.
Print Assumptions C96_edges.

(** C96, the program: it does not panic, all vertices are in front of the perspective camera, and
    the two files show every edge by the central and the parallel projection of its ends, scaled
    alike in both directions and moved into the canvas. *)
Theorem C96_cube_drawn : exists q sp xp yp so xo yo,
  let c := mkV3 10 3 5 in
  let e := from_view c (mkV3 0 0 0) (mkV3 0 0 1) in
  let pinhole y := mkV2 (100 * vx y / vz y + 640) (100 * vy y / vz y + 480) in
  let parallel y := mkV2 (100 * vx y + 321) (102 * vy y + 8440730864110797 * / 2 ^ 45) in
  let draw s x0 y0 (p : V2 R) := (s * (px p - x0) + 5, s * (py p - y0) + 5) in
  let seen f (i : nat) := f (to_camera q c (nth i cube_verts vO)) in
  unit_quat q /\ e = from_rotation_and_camcenter q c /\ 0 < sp /\ 0 < so /\
  (forall v, In v cube_verts -> 0 < depth q c v) /\
  main_render_cube = Some
    (map (fun e => (draw sp xp yp (seen pinhole (fst e)), draw sp xp yp (seen pinhole (snd e)))) cube_edges,
     map (fun e => (draw so xo yo (seen parallel (fst e)), draw so xo yo (seen parallel (snd e)))) cube_edges) /\
  (forall v, In v cube_verts -> let '(x, y) := draw sp xp yp (pinhole (to_camera q c v)) in in_rect (mkV2 5 5) (mkV2 295 195) (mkV2 x y)) /\
  (forall v, In v cube_verts -> let '(x, y) := draw so xo yo (parallel (to_camera q c v)) in in_rect (mkV2 5 5) (mkV2 295 195) (mkV2 x y)).
Proof. exact C96_drawn_lemma. Qed.
Print Assumptions C96_cube_drawn.

(** C96 in double precision, if sine and cosine are rounded correctly at pi/2: both files have
    twelve lines inside the canvas less its border. *)
Section F64.
Variables fsin fcos : f64 -> f64.
Local Hint Extern 0 (Ops f64) => exact (f64_ops fsin fcos) : typeclass_instances.
Theorem C96_cube_drawn_f64 :
  fsin (o_pi64 / o_two)%S = o_one -> fcos (o_pi64 / o_two)%S = o_lit 4967757600021511%Z (-106)%Z ->
  exists file1 file2 : list ((f64 * f64) * (f64 * f64)), main_render_cube = Some (file1, file2) /\
    forall file, file = file1 \/ file = file2 ->
      length file = 12%nat /\
      forall x1 y1 x2 y2, In ((x1, y1), (x2, y2)) file ->
        forall x y, (x, y) = (x1, y1) \/ (x, y) = (x2, y2) ->
        is_finite x = true /\ is_finite y = true /\ 5 <= B2R x <= 295 /\ 5 <= B2R y <= 195.
Proof. exact (C96_f64_statement fsin fcos). Qed.
End F64.
Print Assumptions C96_cube_drawn_f64.

Example C96_case : exists fsin fcos file1 file2,
  @main_render_cube f64 (f64_ops fsin fcos) = Some (file1, file2) /\ length file1 = 12%nat.
Proof.
  set (one := @o_one f64 (f64_ops (fun x => x) (fun x => x))). set (tiny := @o_lit f64 (f64_ops (fun x => x) (fun x => x)) 4967757600021511%Z (-106)%Z).
  exists (fun _ => one), (fun _ => tiny).
  destruct (C96_cube_drawn_f64 (fun _ => one) (fun _ => tiny) eq_refl eq_refl) as (f1 & f2 & E & H).
  exists f1, f2. split; [exact E|]. apply (H f1). now left.
Qed.
