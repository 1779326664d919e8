(** Model of the backend registry and the global settings in src/spey/__init__.py. *)
From Coq Require Import String List Bool Arith.
From Verif Require Import ConfigModel FitModel.
Import ListNotations.
Local Open Scope list_scope.

Inductive kind := IsBackend | IsConverter | IsNeither.
(** A Python class object, as far as the registry looks at it. Metadata fields author, version, doi, arXiv, zenodo are
    taken together as [k_meta]. *)
Record class := Class {
  k_kind : kind;
  k_abstract : bool;
  k_name : option string;
  k_requires : option string;
  k_meta : nat }.

(** Class objects live in a heap: get_backend may assign to their name attribute. *)
Definition classes := list class.

(** A registry entry: an EntryPoint that loads a class (None: loading fails), or a class stored by register_backend *)
Inductive entry := Point (loads : option nat) | Direct (k : nat).
Definition registry := list (string * entry).

Inductive reg_err := AssertionErr | AbstractModelErr | MissingMetaDataErr | RegValueError | PluginErr | AttributeErr | ImportErr.

(** dict.get and dict assignment *)
Fixpoint rget (r : registry) (n : string) : option entry :=
  match r with [] => None | (k, v) :: t => if String.eqb k n then Some v else rget t n end.
Fixpoint rset (r : registry) (n : string) (e : entry) : registry :=
  match r with
  | [] => [(n, e)]
  | (k, v) :: t => if String.eqb k n then (k, e) :: t else (k, v) :: rset t n e
  end.

(** L117-128 reset_backend_entries: update with the currently installed plugins *)
Definition reset (r : registry) (installed : list (string * option nat)) : registry :=
  fold_left (fun r e => rset r (fst e) (Point (snd e))) installed r.

Section Version.
  (** [Version(__version__) in SimpleSpec(s)]; None when s is not a valid specification (ValueError) *)
  Variable accepts : string -> option bool.

  (** L131-196 register_backend *)
  Definition register (cs : classes) (r : registry) (k : nat) : registry * option reg_err :=
    match nth_error cs k with
    | None => (r, Some AssertionErr)
    | Some c =>
        match k_kind c with
        | IsNeither => (r, Some AssertionErr)
        | _ =>
            if k_abstract c then (r, Some AbstractModelErr)
            else match k_requires c, k_name c with
                 | Some spec, Some name =>
                     match rget r name with
                     | Some _ => (r, Some RegValueError)
                     | None =>
                         match accepts spec with
                         | None => (r, Some RegValueError)
                         | Some false => (r, Some PluginErr)
                         | Some true => (rset r name (Direct k), None)
                         end
                     end
                 | _, _ => (r, Some MissingMetaDataErr)
                 end
        end
    end.

  (** L199-213 *)
  Definition available (r : registry) : list string := map fst r.

  Definition with_name (c : class) (n : string) : class := Class (k_kind c) (k_abstract c) (Some n) (k_requires c) (k_meta c).

  (** L216-311 get_backend. The answer is the class wrapped (for a converter: an instance of it).
      isinstance(backend, (BackendBase, ConverterBase)) is false for a class, so backend.load() is called on it (L272-276),
      which raises AttributeError. L302 issubclass(x, ConverterBase) only selects instantiation. *)
  Definition get_backend (cs : classes) (r : registry) (n : string) : classes * (nat + reg_err) :=
    match rget r n with
    | None => (cs, inr PluginErr)
    | Some (Direct _) => (cs, inr AttributeErr)
    | Some (Point None) => (cs, inr ImportErr)
    | Some (Point (Some k)) =>
        match nth_error cs k with
        | None => (cs, inr ImportErr)
        | Some c =>
            match k_requires c with
            | None => (cs, inr AssertionErr)
            | Some spec =>
                let named := match k_name c with Some s => negb (String.eqb s "") | None => false end in
                let wrong := match k_name c with Some s => negb (String.eqb s n) | None => false end in
                if (named && wrong)%bool then (cs, inr AssertionErr)
                else
                  let cs1 := if named then cs else upd cs k (with_name c n) in
                  match accepts spec with
                  | None => (cs1, inr RegValueError)
                  | Some false => (cs1, inr PluginErr)
                  | Some true => if k_abstract c then (cs1, inr AbstractModelErr) else (cs1, inl k)
                  end
            end
        end
    end.

  (** L314-366 get_backend_metadata: (name, spey_requires, other metadata) *)
  Definition get_metadata (cs : classes) (r : registry) (n : string) : (string * string * nat) + reg_err :=
    match rget r n with
    | None => inr PluginErr
    | Some (Direct _) => inr AttributeErr
    | Some (Point None) => inr ImportErr
    | Some (Point (Some k)) =>
        match nth_error cs k with
        | None => inr ImportErr
        | Some c =>
            match k_requires c with
            | None => inr AttributeErr
            | Some spec => inl (match k_name c with Some s => s | None => "__unknown_model__"%string end, spec, k_meta c)
            end
        end
    end.

  (** A history of registry operations *)
  Inductive rop := Register (k : nat) | Reset (installed : list (string * option nat)) | Get (n : string) | Meta (n : string).
  Definition rstep (s : classes * registry) (o : rop) : classes * registry :=
    match o with
    | Register k => (fst s, fst (register (fst s) (snd s) k))
    | Reset l => (fst s, reset (snd s) l)
    | Get n => (fst (get_backend (fst s) (snd s) n), snd s)
    | Meta _ => s
    end.
  Definition rrun (s : classes * registry) (l : list rop) := fold_left rstep l s.
End Version.

(** ** set_optimiser (L463-497): the new value of SPEY_OPTIMISER *)
Definition set_optimiser (env : option string) (iminuit_installed : bool) (name : string) : option string :=
  if existsb (String.eqb name) ["minuit"; "iminuit"]%string then
    (if iminuit_installed then Some "minuit"%string else env)
  else if String.eqb name "scipy" then Some "scipy"%string else env.

(** ** log_once (L445-460): functools.lru_cache(10) around the logging call. A key is the pair of message and type;
    the cache keeps the ten most recently used keys. Returns the new cache and whether a record was emitted. *)
Definition lru_size : nat := 10.
Definition log_key := (string * string)%type.
Definition key_eq (x y : log_key) : bool := (String.eqb (fst x) (fst y) && String.eqb (snd x) (snd y))%bool.
Definition log_once (cache : list log_key) (k : log_key) : list log_key * bool :=
  if existsb (key_eq k) cache then (k :: filter (fun x => negb (key_eq k x)) cache, false)
  else (firstn lru_size (k :: cache), true).
Fixpoint log_run (cache : list log_key) (l : list log_key) : list log_key * list log_key :=
  match l with
  | [] => (cache, [])
  | k :: t => let '(c1, emitted) := log_once cache k in
              let '(c2, out) := log_run c1 t in
              (c2, if emitted then k :: out else out)
  end.
