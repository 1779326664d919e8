(** Model of who holds the lists of a model's configuration: src/spey/backends/default_pdf/__init__.py L427-436 and
    src/spey/backends/default_pdf/simple_pdf.py L260-270 (config) and src/spey/base/model_config.py (ModelConfig), with lists as objects shared
    by reference. Contents are computed by ConfigModel. Simplifications: attributes of configurations are not assigned to; the pairs of bounds
    are tuples, which cannot be changed; suggested_fixed (None for these models unless set) is a value. *)
From Coq Require Import String List Reals Bool ZArith Arith.
From Verif Require Import Fl ConfigModel.
Import ListNotations.

(** The lists, by address *)
Inductive cell := Inits (l : list fl) | Bounds (l : list bound) | Names (l : list string) | Loose (l : list loose_bound).
(** model_config.py L36-54: a configuration refers to its lists. *)
Record cobj := Obj { o_poi : nat; o_min : fl; o_init : nat; o_bounds : nat; o_names : option nat; o_fixed : option (list bool) }.
(** All lists and all configurations; the first configuration is self._config. *)
Record store := Store { cells : list cell; objs : list cobj }.

(** What a configuration says *)
Definition inits_at (h : list cell) (a : nat) : option (list fl) := match nth_error h a with Some (Inits l) => Some l | _ => None end.
Definition bounds_at (h : list cell) (a : nat) : option (list bound) := match nth_error h a with Some (Bounds l) => Some l | _ => None end.
Definition names_at (h : list cell) (a : nat) : option (list string) := match nth_error h a with Some (Names l) => Some l | _ => None end.
Definition read_obj (h : list cell) (o : cobj) : option config :=
  match inits_at h (o_init o), bounds_at h (o_bounds o) with
  | Some i, Some b =>
      match o_names o with
      | None => Some (Config (o_poi o) (o_min o) i b None (o_fixed o))
      | Some a => match names_at h a with Some n => Some (Config (o_poi o) (o_min o) i b (Some n) (o_fixed o)) | None => None end
      end
  | _, _ => None
  end.
Definition read (w : store) (k : nat) : option config := match nth_error (objs w) k with Some o => read_obj (cells w) o | None => None end.

(** Calls of the interface, and writes: the list at an address gets another content, in whatever way. *)
Inductive event :=
| GetConfig (allow_negative_signal : bool) (poi_upper_bound : R)
| FixedBounds (k : nat) (poi_value : option R)
| FixedMulti (k : nat) (poi_values : list (Z * R))
| Rescale (k : nat) (allow_negative_signal : bool) (poi_upper_bound : option R)
| Rename (k : nat) (name_map : list (string * string))
| WriteList (a : nat) (c : cell).
Inductive answer := AnObject (k : nat) | AList (a : nat) | Nothing | Raised.

(** A new list *)
Definition fresh (w : store) (c : cell) : store * answer := (Store (cells w ++ [c]) (objs w), AList (length (cells w))).

Definition perform (w : store) (e : event) : store * answer :=
  match e with
  | GetConfig neg ub =>
      if (neg && Reqb ub 10)%bool then (w, AnObject 0)
      else match nth_error (objs w) 0 with
           | Some o => match bounds_at (cells w) (o_bounds o) with
                       | Some b => (Store (cells w ++ [Bounds ((Some (Num 0), Some (Num ub)) :: tl b)])
                                          (objs w ++ [Obj (o_poi o) (o_min o) (o_init o) (length (cells w)) (o_names o) None]), AnObject (length (objs w)))
                       | None => (w, Raised)
                       end
           | None => (w, Raised)
           end
  | FixedBounds k None => match nth_error (objs w) k with Some o => (w, AList (o_bounds o)) | None => (w, Raised) end
  | FixedBounds k (Some v) =>
      match read w k with
      | Some c => match fixed_poi_bounds c (Some v) with inl l => fresh w (Bounds l) | inr _ => (w, Raised) end
      | None => (w, Raised)
      end
  | FixedMulti k [] => match nth_error (objs w) k with Some o => (w, AList (o_bounds o)) | None => (w, Raised) end
  | FixedMulti k items =>
      match read w k with
      | Some c => match fixed_poi_bounds_multi c items with inl l => fresh w (Bounds l) | inr _ => (w, Raised) end
      | None => (w, Raised)
      end
  | Rescale k neg ub =>
      match read w k with
      | Some c => match rescale_poi_bounds c neg ub with inl l => fresh w (Loose l) | inr _ => (w, Raised) end
      | None => (w, Raised)
      end
  | Rename k m =>
      match nth_error (objs w) k with
      | Some o => match o_names o with
                  | Some a => match names_at (cells w) a with
                              | Some n => match change_parameter_names (Some n) m with
                                          | (Some n', e) => (Store (upd (cells w) a (Names n')) (objs w), match e with None => Nothing | Some _ => Raised end)
                                          | (None, _) => (w, Raised)
                                          end
                              | None => (w, Raised)
                              end
                  | None => (w, match m with [] => Nothing | _ => Raised end)
                  end
      | None => (w, Raised)
      end
  | WriteList a c => (Store (upd (cells w) a c) (objs w), Nothing)
  end.

(** The model as built, with configuration c *)
Definition built (c : config) : store :=
  match parameter_names c with
  | Some n => Store [Inits (suggested_init c); Bounds (suggested_bounds c); Names n] [Obj (poi_index c) (minimum_poi c) 0 1 (Some 2) (suggested_fixed c)]
  | None => Store [Inits (suggested_init c); Bounds (suggested_bounds c)] [Obj (poi_index c) (minimum_poi c) 0 1 None (suggested_fixed c)]
  end.
