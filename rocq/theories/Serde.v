(** * Serde.v - model of the (de)serializers (feature [serde-serialize])

    Modelled: the serde data model as produced and consumed by a self-describing
    format such as JSON (numbers, null, sequences, maps with string keys); the
    two hand-written [Deserialize] implementations, transcribed; the derived
    implementations, as generated by serde_derive 1.x; the nalgebra 0.33
    implementations for [Unit], [Quaternion], [OPoint], [Matrix].

    Not modelled: the text of a format (how a number is printed and parsed),
    the wording of error messages. *)

From Coq Require Import List String ZArith Arith Bool.
From Verif Require Import Scalar Linalg Bundles Extrinsics Perspective Orthographic Camera.
Import ListNotations.
Local Open Scope string_scope.

(** The value tree of a self-describing format.  [SInt]: a number written as
    an unsigned integer ([visit_u64]). *)
Inductive sval (T : Type) :=
| SNum (t : T)
| SInt (n : nat)
| SUnit
| SSeq (l : list (sval T))
| SMap (es : list (string * sval T)).
Arguments SNum {T}. Arguments SInt {T}. Arguments SUnit {T}. Arguments SSeq {T}. Arguments SMap {T}.

(** The constructors of [serde::de::Error] which occur. *)
Inductive derr :=
| InvalidType
| InvalidLength (n : nat)
| MissingField (name : string)
| DuplicateField (name : string)
| UnknownField (name : string)
| Custom.

(** [Result<A, D::Error>] *)
Inductive dres (A : Type) := DOk (a : A) | DErr (e : derr).
Arguments DOk {A}. Arguments DErr {A}.
Definition dbind {A B} (x : dres A) (f : A -> dres B) : dres B :=
  match x with DOk a => f a | DErr e => DErr e end.
(** the [?] operator *)
Notation "x <-? e ;; f" := (dbind e (fun x => f)) (at level 60, e at next level, right associativity).
(** [Option::ok_or_else] *)
Definition ok_or {A} (o : option A) (e : derr) : dres A :=
  match o with Some a => DOk a | None => DErr e end.

Section Model.
Context {T : Type} {O : Ops T}.

(** ** Scalars and nalgebra types *)

(** serde's [impl Deserialize for f64]: floats and integers are accepted *)
Definition de_num (v : sval T) : dres T :=
  match v with
  | SNum t => DOk t
  | SInt n => DOk (o_lit (Z.of_nat n) 0)
  | _ => DErr InvalidType
  end.

(** nalgebra [ArrayStorageVisitor::visit_seq]: [cap] entries *)
Fixpoint array_visit_seq (cap curr : nat) (out : list T) (l : list (sval T)) : dres (list T) :=
  match l with
  | [] => if Nat.eqb curr cap then DOk out else DErr (InvalidLength curr)
  | v :: l' =>
      t <-? de_num v ;;
      if Nat.ltb curr cap then array_visit_seq cap (S curr) (out ++ [t]) l'
      else DErr (InvalidLength curr)
  end.

(** nalgebra [impl Deserialize for ArrayStorage] *)
Definition de_array (cap : nat) (v : sval T) : dres (list T) :=
  match v with
  | SSeq l => array_visit_seq cap 0 [] l
  | _ => DErr InvalidType
  end.

(** [Vector3], [Point3] (both transparent) *)
Definition ser_v3 (v : V3 T) : sval T := SSeq (map SNum [vx v; vy v; vz v]).
Definition de_v3 (v : sval T) : dres (V3 T) :=
  l <-? de_array 3 v ;;
  match l with [a; b; c] => DOk (mkV3 a b c) | _ => DErr Custom end.

(** [UnitQuaternion]: [Unit] and [Quaternion] are transparent, [coords] is
    [i, j, k, w]; [Unit]'s deserializer does not normalize. *)
Definition ser_quat (q : Quat T) : sval T := SSeq (map SNum [qi q; qj q; qk q; qw q]).
Definition de_quat (v : sval T) : dres (Quat T) :=
  l <-? de_array 4 v ;;
  match l with [i; j; k; w] => DOk (mkQuat i j k w) | _ => DErr Custom end.

(** [SMatrix<R, N, 3>]: the column-major slice of the storage *)
Definition to_columns (rows : list (V3 T)) : list T :=
  map vx rows ++ map vy rows ++ map vz rows.
Fixpoint zip3 (a b c : list T) : list (V3 T) :=
  match a, b, c with
  | x :: a', y :: b', z :: c' => mkV3 x y z :: zip3 a' b' c'
  | _, _, _ => []
  end.
Definition of_columns (n : nat) (l : list T) : list (V3 T) :=
  zip3 (firstn n l) (firstn n (skipn n l)) (skipn n (skipn n l)).
Definition ser_smatrix (rows : list (V3 T)) : sval T := SSeq (map SNum (to_columns rows)).
Definition de_smatrix (n : nat) (v : sval T) : dres (list (V3 T)) :=
  l <-? de_array (n * 3) v ;;
  DOk (of_columns n l).

(** [OMatrix<R, Dyn, U3>]: nalgebra [impl Serialize/Deserialize for VecStorage],
    the tuple [(data, nrows, ncols)]; [Dyn] is its number, [U3] is unit. *)
Definition ser_dmatrix (rows : list (V3 T)) : sval T :=
  SSeq [ser_smatrix rows; SInt (List.length rows); SUnit].
Fixpoint de_nums (l : list (sval T)) : dres (list T) :=
  match l with
  | [] => DOk []
  | v :: l' => t <-? de_num v ;; r <-? de_nums l' ;; DOk (t :: r)
  end.
Definition de_dmatrix (v : sval T) : dres (list (V3 T)) :=
  match v with
  | SSeq (SSeq d :: v1) =>
      data <-? de_nums d ;;
      match v1 with
      | [] => DErr (InvalidLength 1)
      | SInt nrows :: [] => DErr (InvalidLength 2)
      | SInt nrows :: SUnit :: [] =>
          if Nat.eqb (nrows * 3) (List.length data) then DOk (of_columns nrows data) else DErr Custom
      | SInt nrows :: SUnit :: _ => DErr (InvalidLength (2 + List.length v1))
      | _ => DErr InvalidType
      end
  | SSeq [] => DErr (InvalidLength 0)
  | _ => DErr InvalidType
  end.

(** [PhantomData] is a unit struct *)
Definition de_unit (v : sval T) : dres unit :=
  match v with SUnit => DOk tt | _ => DErr InvalidType end.

(** ** The hand-written deserializers *)

(** [deserializer.deserialize_struct] of a self-describing format: a sequence
    goes to [visit_seq], which returns the elements it left over (these are an
    error), a map goes to [visit_map]. *)
Definition deserialize_struct {A}
    (visit_seq : list (sval T) -> dres (A * list (sval T)))
    (visit_map : list (string * sval T) -> dres A) (v : sval T) : dres A :=
  match v with
  | SSeq l =>
      r <-? visit_seq l ;;
      match snd r with [] => DOk (fst r) | _ => DErr (InvalidLength (List.length l)) end
  | SMap es => visit_map es
  | _ => DErr InvalidType
  end.

(** [SeqAccess::next_element] *)
Definition next_element {A} (de : sval T -> dres A) (l : list (sval T))
  : dres (option A * list (sval T)) :=
  match l with
  | [] => DOk (None, [])
  | v :: l' => a <-? de v ;; DOk (Some a, l')
  end.

(** extrinsics.rs 282-287, [enum Field]: the lower case variant names *)
Inductive EField := RQuat | CamCenter.
Definition efield_of (key : string) : dres EField :=
  if String.eqb key "rquat" then DOk RQuat
  else if String.eqb key "camcenter" then DOk CamCenter
  else DErr (UnknownField key).

(** extrinsics.rs 302-318 *)
Definition extr_visit_seq (seq : list (sval T)) : dres (ExtrinsicParameters T * list (sval T)) :=
  r1 <-? next_element de_quat seq ;;
  rquat <-? ok_or (fst r1) (InvalidLength 0) ;;
  r2 <-? next_element de_v3 (snd r1) ;;
  camcenter <-? ok_or (fst r2) (InvalidLength 1) ;;
  DOk (from_rotation_and_camcenter rquat camcenter, snd r2).

(** extrinsics.rs 327-344, the [while] loop *)
Fixpoint extr_loop (map : list (string * sval T)) (rquat : option (Quat T))
    (camcenter : option (V3 T)) : dres (option (Quat T) * option (V3 T)) :=
  match map with
  | [] => DOk (rquat, camcenter)
  | (key, value) :: map' =>
      f <-? efield_of key ;;
      match f with
      | RQuat =>
          if match rquat with Some _ => true | None => false end
          then DErr (DuplicateField "rquat")
          else x <-? de_quat value ;; extr_loop map' (Some x) camcenter
      | CamCenter =>
          if match camcenter with Some _ => true | None => false end
          then DErr (DuplicateField "camcenter")
          else x <-? de_v3 value ;; extr_loop map' rquat (Some x)
      end
  end.

(** extrinsics.rs 320-350 *)
Definition extr_visit_map (map : list (string * sval T)) : dres (ExtrinsicParameters T) :=
  st <-? extr_loop map None None ;;
  rquat <-? ok_or (fst st) (MissingField "rquat") ;;
  camcenter <-? ok_or (snd st) (MissingField "camcenter") ;;
  DOk (from_rotation_and_camcenter rquat camcenter).

(** extrinsics.rs 272-360 *)
Definition de_extrinsics (v : sval T) : dres (ExtrinsicParameters T) :=
  deserialize_struct extr_visit_seq extr_visit_map v.

(** extrinsics.rs 19-25, [derive(Serialize)] with [serde(skip)] on the cache *)
Definition ser_extrinsics (e : ExtrinsicParameters T) : sval T :=
  SMap [("rquat", ser_quat (e_rquat e)); ("camcenter", ser_v3 (e_camcenter e))].

(** ** Derived deserializers *)

(** The fields of a struct with their deserializers; the struct is the nested
    product of the field values. *)
Inductive fields : Type -> Type :=
| FNil : fields unit
| FCons {A B : Type} : string -> (sval T -> dres A) -> fields B -> fields (A * B).

Fixpoint fstate {X} (f : fields X) : Type :=
  match f with
  | FNil => unit
  | @FCons A _ _ _ r => (option A * fstate r)%type
  end.
(** all fields start as [None] *)
Fixpoint finit {X} (f : fields X) : fstate f :=
  match f return fstate f with
  | FNil => tt
  | FCons _ _ r => (None, finit r)
  end.
(** the [match key] of the generated loop; [None] for an unknown key *)
Fixpoint fstep {X} (f : fields X) (key : string) (value : sval T)
  : fstate f -> option (dres (fstate f)) :=
  match f return fstate f -> option (dres (fstate f)) with
  | FNil => fun _ => None
  | FCons n de r => fun st =>
      if String.eqb key n then
        Some (match fst st with
              | Some _ => DErr (DuplicateField n)
              | None => x <-? de value ;; DOk (Some x, snd st)
              end)
      else match fstep r key value (snd st) with
           | None => None
           | Some rs => Some (s <-? rs ;; DOk (fst st, s))
           end
  end.
(** the generated [while let Some(key)] loop; without [deny_unknown_fields]
    the value of an unknown key is ignored *)
Fixpoint floop {X} (f : fields X) (map : list (string * sval T)) (st : fstate f)
  : dres (fstate f) :=
  match map with
  | [] => DOk st
  | (key, value) :: map' =>
      match fstep f key value st with
      | None => floop f map' st
      | Some rs => st' <-? rs ;; floop f map' st'
      end
  end.
(** the missing field checks, in declaration order *)
Fixpoint ffinish {X} (f : fields X) : fstate f -> dres X :=
  match f in fields X return fstate f -> dres X with
  | FNil => fun _ => DOk tt
  | FCons n _ r => fun st =>
      x <-? ok_or (fst st) (MissingField n) ;;
      y <-? ffinish r (snd st) ;;
      DOk (x, y)
  end.
Definition derived_visit_map {X} (f : fields X) (map : list (string * sval T)) : dres X :=
  st <-? floop f map (finit f) ;; ffinish f st.
Fixpoint derived_visit_seq {X} (f : fields X) (i : nat) (l : list (sval T))
  : dres (X * list (sval T)) :=
  match f in fields X return dres (X * list (sval T)) with
  | FNil => DOk (tt, l)
  | FCons _ de r =>
      p <-? next_element de l ;;
      x <-? ok_or (fst p) (InvalidLength i) ;;
      q <-? derived_visit_seq r (S i) (snd p) ;;
      DOk ((x, fst q), snd q)
  end.
Definition derived {X} (f : fields X) (v : sval T) : dres X :=
  deserialize_struct (derived_visit_seq f 0) (derived_visit_map f) v.

(** intrinsics_perspective.rs 50-63, [struct PerspectiveParams] *)
Definition ser_persp_params (p : PerspectiveParams T) : sval T :=
  SMap [("fx", SNum (pp_fx p)); ("fy", SNum (pp_fy p)); ("skew", SNum (pp_skew p));
        ("cx", SNum (pp_cx p)); ("cy", SNum (pp_cy p))].
Definition persp_params_fields :=
  FCons "fx" de_num (FCons "fy" de_num (FCons "skew" de_num
    (FCons "cx" de_num (FCons "cy" de_num FNil)))).
Definition de_persp_params (v : sval T) : dres (PerspectiveParams T) :=
  r <-? derived persp_params_fields v ;;
  let '(fx, (fy, (skew, (cx, (cy, _))))) := r in DOk (mkPP fx fy skew cx cy).

(** intrinsics_orthographic.rs 43-54, [struct OrthographicParams] *)
Definition ser_ortho_params (p : OrthographicParams T) : sval T :=
  SMap [("sx", SNum (op_sx p)); ("sy", SNum (op_sy p));
        ("cx", SNum (op_cx p)); ("cy", SNum (op_cy p))].
Definition ortho_params_fields :=
  FCons "sx" de_num (FCons "sy" de_num (FCons "cx" de_num (FCons "cy" de_num FNil))).
Definition de_ortho_params (v : sval T) : dres (OrthographicParams T) :=
  r <-? derived ortho_params_fields v ;;
  let '(sx, (sy, (cx, (cy, _)))) := r in DOk (mkOP sx sy cx cy).

(** intrinsics_orthographic.rs 67-71, [struct IntrinsicParametersOrthographic] *)
Definition ser_ortho (k : IntrinsicParametersOrthographic T) : sval T :=
  SMap [("params", ser_ortho_params (io_params k))].
Definition de_ortho (v : sval T) : dres (IntrinsicParametersOrthographic T) :=
  r <-? derived (FCons "params" de_ortho_params FNil) v ;; DOk (mkIPO (fst r)).

(** intrinsics_perspective.rs 82-88, [derive(Serialize)], the cache is skipped *)
Definition ser_persp (k : IntrinsicParametersPerspective T) : sval T :=
  SMap [("params", ser_persp_params (ip_params k))].

(** intrinsics_perspective.rs 302-313, hand-written *)
Definition persp_visit_seq (seq : list (sval T))
  : dres (IntrinsicParametersPerspective T * list (sval T)) :=
  r1 <-? next_element de_persp_params seq ;;
  params <-? ok_or (fst r1) (InvalidLength 0) ;;
  DOk (perspective_from params, snd r1).
(** intrinsics_perspective.rs 322-332, the [while] loop; 283-287, [enum Field] *)
Fixpoint persp_loop (map : list (string * sval T)) (params : option (PerspectiveParams T))
  : dres (option (PerspectiveParams T)) :=
  match map with
  | [] => DOk params
  | (key, value) :: map' =>
      if String.eqb key "params" then
        if match params with Some _ => true | None => false end
        then DErr (DuplicateField "params")
        else x <-? de_persp_params value ;; persp_loop map' (Some x)
      else DErr (UnknownField key)
  end.
(** intrinsics_perspective.rs 315-337 *)
Definition persp_visit_map (map : list (string * sval T))
  : dres (IntrinsicParametersPerspective T) :=
  st <-? persp_loop map None ;;
  params <-? ok_or st (MissingField "params") ;;
  DOk (perspective_from params).
(** intrinsics_perspective.rs 272-346 *)
Definition de_persp (v : sval T) : dres (IntrinsicParametersPerspective T) :=
  deserialize_struct persp_visit_seq persp_visit_map v.

(** camera.rs 70-79, [struct Camera], for any intrinsics *)
Definition ser_camera {I} (ser_i : I -> sval T) (c : Camera T I) : sval T :=
  SMap [("intrinsics", ser_i (cam_intrinsics c));
        ("extrinsics", ser_extrinsics (cam_extrinsics c))].
Definition de_camera {I} (de_i : sval T -> dres I) (v : sval T) : dres (Camera T I) :=
  r <-? derived (FCons "intrinsics" de_i (FCons "extrinsics" de_extrinsics FNil)) v ;;
  DOk (mkCamera (fst r) (fst (snd r))).

(** ray_bundle_types.rs 9-13 and 182-186 *)
Definition ser_so (b : SharedOriginRayBundle T) : sval T := SMap [("center", ser_v3 (so_center b))].
Definition de_so (v : sval T) : dres (SharedOriginRayBundle T) :=
  r <-? derived (FCons "center" de_v3 FNil) v ;; DOk (mkSO (fst r)).
Definition ser_sd (b : SharedDirectionRayBundle T) : sval T :=
  SMap [("direction", ser_v3 (sd_direction b))].
Definition de_sd (v : sval T) : dres (SharedDirectionRayBundle T) :=
  r <-? derived (FCons "direction" de_v3 FNil) v ;; DOk (mkSD (fst r)).

(** lib.rs 260-274, [struct RayBundle], for any storage and bundle type *)
Definition ser_bundle {Coords B} (ser_data : list (V3 T) -> sval T) (ser_b : B -> sval T)
    (r : RayBundle Coords B T) : sval T :=
  SMap [("coords", SUnit); ("data", ser_data (rb_data r)); ("bundle_type", ser_b (rb_type r))].
Definition de_bundle {Coords B} (de_data : sval T -> dres (list (V3 T))) (de_b : sval T -> dres B)
    (v : sval T) : dres (RayBundle Coords B T) :=
  r <-? derived (FCons "coords" de_unit (FCons "data" de_data (FCons "bundle_type" de_b FNil))) v ;;
  DOk (mkRayBundle (fst (snd r)) (fst (snd (snd r)))).

End Model.
