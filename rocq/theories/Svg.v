(** * Svg.v - model of /repo/examples/render-cube.rs

    The numbers written to the file are modelled, not their text nor the file
    system.  [INFINITY] and [-INFINITY] as initial bounds are [None]; the
    minimum and maximum are those of numbers (the special treatment of NaN by
    [f64::min] and [f64::max] is not modelled). *)

From Coq Require Import List ZArith.
From Verif Require Import Scalar Linalg Bundles Extrinsics Camera.
Import ListNotations.

(** render-cube.rs 51-57, [struct SvgWriter] *)
Record SvgWriter (T : Type) := mkSvg {
  sw_segs : list ((T * T) * (T * T));
  sw_xmin : option T; sw_xmax : option T; sw_ymin : option T; sw_ymax : option T }.
Arguments mkSvg {T}. Arguments sw_segs {T}. Arguments sw_xmin {T}. Arguments sw_xmax {T}.
Arguments sw_ymin {T}. Arguments sw_ymax {T}.

Section Model.
Context {T : Type} {O : Ops T}.
Local Open Scope S_scope.

(** [f64::min] and [f64::max] with a bound that may still be infinite *)
Definition min_with (b : option T) (x : T) : option T :=
  match b with None => Some x | Some m => Some (if x <? m then x else m) end.
Definition max_with (b : option T) (x : T) : option T :=
  match b with None => Some x | Some m => Some (if m <? x then x else m) end.

(** render-cube.rs 60-68 *)
Definition svg_new : SvgWriter T := mkSvg [] None None None None.

(** render-cube.rs 69-86 *)
Definition add_edge (w : SvgWriter T) (pt0 pt1 : V2 T) : SvgWriter T :=
  mkSvg (sw_segs w ++ [((px pt0, py pt0), (px pt1, py pt1))])
    (min_with (min_with (sw_xmin w) (px pt0)) (px pt1))
    (max_with (max_with (sw_xmax w) (px pt0)) (px pt1))
    (min_with (min_with (sw_ymin w) (py pt0)) (py pt1))
    (max_with (max_with (sw_ymax w) (py pt0)) (py pt1)).

(** render-cube.rs 87-139: the [x1 y1 x2 y2] of the lines, which are also the
    centers of the circles.  [None]: the bounds are still infinite, in which
    case nothing is drawn. *)
Definition svg_save (w : SvgWriter T) : option (list ((T * T) * (T * T))) :=
  xmin <- sw_xmin w ;; xmax <- sw_xmax w ;; ymin <- sw_ymin w ;; ymax <- sw_ymax w ;;
  let width := o_lit 300%Z 0%Z in
  let height := o_lit 200%Z 0%Z in
  let border := o_lit 5%Z 0%Z in
  let xscale := (width - o_two * border) / (xmax - xmin) in
  let yscale := (height - o_two * border) / (ymax - ymin) in
  let '(xscale, yscale) := if yscale <? xscale then (yscale, yscale) else (xscale, xscale) in
  let xoffset := (- xmin) * xscale + border in
  let yoffset := (- ymin) * yscale + border in
  Some (map (fun seg =>
    ((fst (fst seg) * xscale + xoffset, snd (fst seg) * yscale + yoffset),
     (fst (snd seg) * xscale + xoffset, snd (snd seg) * yscale + yoffset))) (sw_segs w)).

(** render-cube.rs 144-171; [row] panics if the index is out of range *)
Definition wire_edges (pixel_coords : list (V2 T)) (edges : list (nat * nat)) : option (SvgWriter T) :=
  fold_left (fun w e =>
    w <- w ;;
    pt0 <- nth_error pixel_coords (fst e) ;;
    pt1 <- nth_error pixel_coords (snd e) ;;
    Some (add_edge w pt0 pt1)) edges (Some svg_new).
Definition render_wireframe {I} {HI : IntrinsicParameters T I} (verts : Points WorldFrame T)
    (edges : list (nat * nat)) (cam : Camera T I) : option (SvgWriter T) :=
  pixel_coords <- world_to_pixel cam verts ;;
  wire_edges (pix_data pixel_coords) edges.

(** render-cube.rs 175-198, the cube of [main] *)
Definition cube_verts : list (V3 T) :=
  let p := o_one in let m := o_mone in
  [mkV3 m m m; mkV3 p m m; mkV3 p p m; mkV3 m p m;
   mkV3 m m p; mkV3 p m p; mkV3 p p p; mkV3 m p p].
Definition cube_edges : list (nat * nat) :=
  [(0,1); (1,2); (2,3); (3,0); (4,5); (5,6); (6,7); (7,4); (0,4); (1,5); (2,6); (3,7)].

End Model.
