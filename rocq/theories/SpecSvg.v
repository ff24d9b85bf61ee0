(** * SpecSvg.v - words of the statements about the SVG example *)

From Coq Require Import List Arith.
From Verif Require Import Scalar Linalg.
Import ListNotations.

(** all end points of a list of edges *)
Definition endpoints {A} (es : list (A * A)) : list A := flat_map (fun e => [fst e; snd e]) es.

(** edge [e] names a vertex that does not exist *)
Definition dangling {A} (verts : list A) (e : nat * nat) : Prop :=
  (length verts <= fst e)%nat \/ (length verts <= snd e)%nat.

(** [seg] goes from the pixel [fst e] to the pixel [snd e] *)
Definition joins {T} (pix : list (V2 T)) (e : nat * nat) (seg : (T * T) * (T * T)) : Prop :=
  exists p q, nth_error pix (fst e) = Some p /\ nth_error pix (snd e) = Some q /\
    seg = ((px p, py p), (px q, py q)).
