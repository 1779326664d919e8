(** Model of src/spey/base/model_config.py (class ModelConfig) and of resolve_parameter_index in
    src/spey/base/utils.py. *)
From Coq Require Import String List Reals Bool ZArith Arith.
From Verif Require Import Fl.
Import ListNotations.
Local Open Scope R_scope.
Local Open Scope list_scope.

(** model_config.py L36-54: the fields. A bound may be None or any float (minimum_poi may be minus infinity). *)
Definition bound := (option fl * option fl)%type.

Record config := Config {
  poi_index : nat;
  minimum_poi : fl;
  suggested_init : list fl;
  suggested_bounds : list bound;
  parameter_names : option (list string);
  suggested_fixed : option (list bool) }.

(** model_config.py L57-60 *)
Definition npar (c : config) : nat := List.length (suggested_init c).

Inductive cfg_err := IndexError | ValueError | TypeError.

(** l[i] = x for an index in range *)
Fixpoint upd {A} (l : list A) (i : nat) (x : A) : list A :=
  match l, i with
  | [], _ => []
  | _ :: t, O => x :: t
  | y :: t, S k => y :: upd t k x
  end.

(** Python's l[z]: a negative index counts from the end. *)
Definition py_index (len : nat) (z : Z) : option nat :=
  if (Z.leb 0 z && Z.ltb z (Z.of_nat len))%bool then Some (Z.to_nat z)
  else if (Z.ltb z 0 && Z.leb (- Z.of_nat len) z)%bool then Some (Z.to_nat (Z.of_nat len + z))
  else None.

(** Python's max of two floats: the second wins only if it is greater. *)
Definition py_max (x y : fl) : fl := if fgtb y x then y else x.

(** [self.minimum_poi if v < 0.0 else 0.0] *)
Definition lower_for (c : config) (v : R) : fl := if Rltb v 0 then minimum_poi c else Num 0.

(** model_config.py L78-86 fixed_poi_bounds(v), v a finite number; None returns the stored list itself. *)
Definition fixed_poi_bounds (c : config) (poi_value : option R) : list bound + cfg_err :=
  match poi_value with
  | None => inl (suggested_bounds c)
  | Some v =>
      match nth_error (suggested_bounds c) (poi_index c) with
      | None => inr IndexError
      | Some (Some lo, Some hi) =>
          if negb (fltb lo (Num v) && fltb (Num v) hi)
          then inl (upd (suggested_bounds c) (poi_index c)
                      (Some (lower_for c v), Some (py_max (Num (v + 1)) (lower_for c v))))
          else inl (suggested_bounds c)
      | Some _ => inl (suggested_bounds c)
      end
  end.

(** model_config.py L142-152 fixed_poi_bounds_multi; the dictionary is a list of items in insertion order. *)
Fixpoint multi_loop (c : config) (items : list (Z * R)) (bounds : list bound) : list bound + cfg_err :=
  match items with
  | [] => inl bounds
  | (idx, v) :: rest =>
      match py_index (List.length bounds) idx with
      | None => inr IndexError
      | Some i =>
          match nth_error bounds i with
          | None => inr IndexError
          | Some (Some lo, Some hi) =>
              if negb (fltb lo (Num v) && fltb (Num v) hi)
              then multi_loop c rest (upd bounds i (Some (lower_for c v), Some (Num (v + 1))))
              else multi_loop c rest bounds
          | Some _ => multi_loop c rest bounds
          end
      end
  end.
Definition fixed_poi_bounds_multi (c : config) (poi_values : list (Z * R)) : list bound + cfg_err :=
  multi_loop c poi_values (suggested_bounds c).

(** list.index *)
Fixpoint index_of (s : string) (l : list string) : option nat :=
  match l with
  | [] => None
  | x :: t => if String.eqb x s then Some O else option_map S (index_of s t)
  end.

(** A key of the poi_test dictionary, and the argument itself (L88-124). *)
Inductive key := KInt (z : Z) | KStr (s : string).
Inductive poi_test := Scalar (v : R) | Dict (items : list (key * R)).

(** d[k] = v on a dictionary: an existing key keeps its place. *)
Fixpoint dict_set (d : list (Z * R)) (k : Z) (v : R) : list (Z * R) :=
  match d with
  | [] => [(k, v)]
  | (k', v') :: t => if Z.eqb k' k then (k', v) :: t else (k', v') :: dict_set t k v
  end.

Definition resolve_key (c : config) (k : key) : Z + cfg_err :=
  match k with
  | KInt z => inl z
  | KStr s =>
      match parameter_names c with
      | None => inr ValueError
      | Some names => match index_of s names with None => inr ValueError | Some i => inl (Z.of_nat i) end
      end
  end.

Fixpoint resolve_loop (c : config) (items : list (key * R)) (resolved : list (Z * R)) : list (Z * R) + cfg_err :=
  match items with
  | [] => inl resolved
  | (k, v) :: rest =>
      match resolve_key c k with
      | inr e => inr e
      | inl z => resolve_loop c rest (dict_set resolved z v)
      end
  end.

(** model_config.py L88-124 resolve_poi_indices *)
Definition resolve_poi_indices (c : config) (p : poi_test) : list (Z * R) + cfg_err :=
  match p with
  | Scalar v => inl [(Z.of_nat (poi_index c), v)]
  | Dict items => resolve_loop c items []
  end.

(** model_config.py L154-163 change_parameter_names: the names afterwards and the exception, if any. *)
Fixpoint rename_loop (items : list (string * string)) (new_names names : list string)
    : list string * option cfg_err :=
  match items with
  | [] => (names, None)
  | (old, new) :: rest =>
      match index_of old names with
      | None => (names, Some ValueError)
      | Some i =>
          if existsb (String.eqb new) new_names then (names, Some ValueError)
          else rename_loop rest (new_names ++ [new]) (upd names i new)
      end
  end.
Definition change_parameter_names (names : option (list string)) (name_map : list (string * string))
    : option (list string) * option cfg_err :=
  match names, name_map with
  | _, [] => (names, None)
  | None, _ => (None, Some TypeError)
  | Some l, _ => let '(l', e) := rename_loop name_map [] l in (Some l', e)
  end.

(** An entry of the list returned by rescale_poi_bounds: the upper end is a number or (L188-191) a whole pair. *)
Inductive upper := UNum (x : option fl) | UPair (b : bound).
Definition loose_bound := (option fl * upper)%type.
Definition loose (b : bound) : loose_bound := (fst b, UNum (snd b)).

(** model_config.py L181-192 rescale_poi_bounds; [poi_upper_bound] is tested for truth, so 0.0 counts as absent. *)
Definition rescale_poi_bounds (c : config) (allow_negative_signal : bool) (poi_upper_bound : option R)
    : list loose_bound + cfg_err :=
  let lower := Some (if allow_negative_signal then minimum_poi c else Num 0) in
  let bounds := suggested_bounds c in
  match nth_error bounds (poi_index c) with
  | None => inr IndexError
  | Some old =>
      let up :=
        match poi_upper_bound with
        | Some u => if Reqb u 0 then UPair old else UNum (Some (Num u))
        | None => UPair old
        end in
      inl (upd (map loose bounds) (poi_index c) (lower, up))
  end.

(** base/utils.py L26-49 resolve_parameter_index *)
Definition resolve_parameter_index (c : config) (parameter : key) : nat + cfg_err :=
  if Nat.ltb (npar c) 2 then inr ValueError
  else
    match parameter with
    | KStr s =>
        match parameter_names c with
        | None => inr ValueError
        | Some names => match index_of s names with None => inr ValueError | Some i => inl i end
        end
    | KInt z =>
        if negb (Z.leb 0 z && Z.ltb z (Z.of_nat (npar c))) then inr ValueError
        else if Z.eqb z (Z.of_nat (poi_index c)) then inr ValueError
        else inl (Z.to_nat z)
    end.
