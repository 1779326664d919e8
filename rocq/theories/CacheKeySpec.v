(** Specification vocabulary for cache keys. *)
From Coq Require Import List Permutation String Qcanon.
From Verif Require Import CacheKeyModel.
Import ListNotations.

(** Types of dictionary keys: strings, bytes, numbers, None, pairs of these and tuples of any length of one of these. *)
Inductive kty := KNone | KInt | KFloat | KStr | KBytes | KPair (a b : kty) | KSeq (a : kty).

Fixpoint has_kty (t : kty) (v : val) : Prop :=
  match t, v with
  | KNone, VNone | KInt, VInt _ | KFloat, VFloat _ | KStr, VStr _ | KBytes, VBytes _ => True
  | KPair a b, VTuple [x; y] => has_kty a x /\ has_kty b y
  | KSeq a, VTuple l => Forall (has_kty a) l
  | _, _ => False
  end.

(** A dictionary whose keys are distinct and of one key type. *)
Definition dict_of (t : kty) (d : list (val * val)) : Prop :=
  NoDup (map fst d) /\ Forall (fun p => has_kty t (fst p)) d.

(** The same Python value: equal, except that the entries of dictionaries (with keys of one
    type) may be listed in a different order, at any depth. *)
Inductive same_value : val -> val -> Prop :=
| same_refl v : same_value v v
| same_list l l' : Forall2 same_value l l' -> same_value (VList l) (VList l')
| same_tuple l l' : Forall2 same_value l l' -> same_value (VTuple l) (VTuple l')
| same_dict t d e d' :
    dict_of t d -> Permutation d e ->
    Forall2 (fun p q => fst p = fst q /\ same_value (snd p) (snd q)) e d' ->
    same_value (VDict d) (VDict d').

(** Static types of arguments, as in the annotations of the cached methods. *)
Inductive ty :=
| TyNone | TyBool | TyInt | TyFloat | TyStr | TyArray
| TyList (t : ty) | TyPair (a b : ty) | TyDict (k : kty) (t : ty) | TyOptional (t : ty).

Fixpoint has_type (t : ty) (v : val) : Prop :=
  match t, v with
  | TyNone, VNone | TyBool, VBool _ | TyInt, VInt _ | TyFloat, VFloat _ | TyStr, VStr _
  | TyArray, VArray _ _ _ => True
  | TyList t, VList l => Forall (has_type t) l
  | TyPair a b, VTuple [x; y] => has_type a x /\ has_type b y
  | TyDict k t, VDict d => dict_of k d /\ Forall (fun p => has_type t (snd p)) d
  | TyOptional t, VNone => True
  | TyOptional t, v => has_type t v
  | _, _ => False
  end.
