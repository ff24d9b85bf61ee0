(** * SpecSerde.v - what it means for two documents to say the same *)

From Coq Require Import List String Permutation.
From Verif Require Import Serde.
Import ListNotations.

(** [v'] is another encoding of the document [v]: the entries of any map may be
    in another order, and any map may be written as the sequence of its values
    (as binary formats do), at every level. *)
Inductive reencoding {T : Type} : sval T -> sval T -> Prop :=
| re_num t : reencoding (SNum t) (SNum t)
| re_int n : reencoding (SInt n) (SInt n)
| re_unit : reencoding SUnit SUnit
| re_seq l l' : Forall2 reencoding l l' -> reencoding (SSeq l) (SSeq l')
| re_map es es1 es' :
    Forall2 (fun a b => fst a = fst b /\ reencoding (snd a) (snd b)) es es1 ->
    Permutation es1 es' -> reencoding (SMap es) (SMap es')
| re_tuple es l :
    Forall2 (fun a b => reencoding (snd a) b) es l -> reencoding (SMap es) (SSeq l).

(** The values stored under a key, in order. *)
Definition values_of {A : Type} (name : string) (es : list (string * A)) : list A :=
  map snd (filter (fun e => String.eqb (fst e) name) es).
