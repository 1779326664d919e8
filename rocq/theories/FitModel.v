(** Model of src/spey/optimizer: fit (core.py), the scipy and minuit drivers, and the option filter. *)
From Coq Require Import String List Reals Bool ZArith Arith Ascii.
From Verif Require Import Fl ConfigModel.
Import ListNotations.
Local Open Scope R_scope.
Local Open Scope list_scope.

(** ** optimizer/core.py: fit, up to and including the call of the minimiser *)

(** Lists of numbers live in a heap, because fit may be given the very list a model keeps; an address is a position. *)
Definition addr := nat.
Definition heap := list (list fl).
Definition read (h : heap) (a : addr) : list fl := nth a h [].

(** The initial_parameters argument: a list or array (mutable, on the heap), a tuple (immutable) or anything else. *)
Inductive init_arg := IList (a : addr) | ITuple (l : list fl) | IOther.

(** fixed_poi_value: None, a number, or a dictionary of index -> value in insertion order *)
Inductive fixed_arg := FNone | FScalar (v : R) | FDict (items : list (Z * R)).

Inductive fit_err := FitConfig (e : cfg_err).

(** core.py L92-96: where the starting point lives. *)
Inductive place := AtHeap (a : addr) | Immutable (l : list fl).
Definition start_place (sugg : addr) (initial : init_arg) : place :=
  match initial with IList a => AtHeap a | ITuple l => Immutable l | IOther => AtHeap sugg end.
Definition contents (h : heap) (p : place) : list fl :=
  match p with AtHeap a => read h a | Immutable l => l end.

(** core.py L98-103. Simplification: bounds is a list of pairs. *)
Definition fit_bounds (c : config) (bounds : option (list bound)) (fixed : fixed_arg) : list bound + cfg_err :=
  match bounds with
  | Some b => inl b
  | None =>
      match fixed with
      | FDict items => fixed_poi_bounds_multi c items
      | FScalar v => fixed_poi_bounds c (Some v)
      | FNone => fixed_poi_bounds c None
      end
  end.

(** [init_pars[idx] = val] *)
Definition assign (h : heap) (p : place) (z : Z) (v : R) : heap + cfg_err :=
  match p with
  | Immutable _ => inr TypeError
  | AtHeap a =>
      match py_index (List.length (read h a)) z with
      | None => inr IndexError
      | Some i => inl (upd h a (upd (read h a) i (Num v)))
      end
  end.
(** [fixed_vals[idx] = True] *)
Definition set_true (m : list bool) (z : Z) : list bool + cfg_err :=
  match py_index (List.length m) z with None => inr IndexError | Some i => inl (upd m i true) end.

(** core.py L114-121, the loop over the dictionary; the heap is returned even on failure. *)
Fixpoint pin (h : heap) (p : place) (m : list bool) (items : list (Z * R)) : heap * (list bool + cfg_err) :=
  match items with
  | [] => (h, inl m)
  | (z, v) :: rest =>
      match assign h p z v with
      | inr e => (h, inr e)
      | inl h' =>
          match set_true m z with
          | inr e => (h', inr e)
          | inl m' => pin h' p m' rest
          end
      end
  end.

(** core.py L123-126, enumerate(suggested_fixed) from position i *)
Fixpoint mark_fixed (m : list bool) (i : nat) (sf : list bool) : list bool + cfg_err :=
  match sf with
  | [] => inl m
  | b :: rest =>
      if b then match set_true m (Z.of_nat i) with inr e => inr e | inl m' => mark_fixed m' (S i) rest end
      else mark_fixed m (S i) rest
  end.

(** str.lower on ASCII letters (the only letters that matter for the two names compared against). *)
Definition lower_ascii (c : ascii) : ascii :=
  let n := nat_of_ascii c in if (Nat.leb 65 n && Nat.leb n 90)%bool then ascii_of_nat (n + 32) else c.
Fixpoint str_lower (s : string) : string :=
  match s with EmptyString => EmptyString | String c t => String (lower_ascii c) (str_lower t) end.

Inductive engine := Scipy | Minuit.
(** core.py L105-111 and _get_minimizer L15-28. The "minimizer" option is a string if present. *)
Definition choose_engine (opt : option string) (env : option string) (iminuit_installed : bool) : engine :=
  let name := match opt with
              | Some s => s
              | None => str_lower (match env with Some s => s | None => "scipy"%string end)
              end in
  let name := if existsb (String.eqb name) ["scipy"; "minuit"]%string then name else "scipy"%string in
  if String.eqb name "minuit" then (if iminuit_installed then Minuit else Scipy) else Scipy.

(** What the minimiser is handed (core.py L128-139). *)
Record handed := Handed {
  h_start : list fl;
  h_mask : list bool;
  h_bounds : list bound;
  h_poi : nat;
  h_engine : engine }.

Record fit_args := FitArgs {
  a_initial : init_arg;
  a_bounds : option (list bound);
  a_fixed : fixed_arg;
  a_engine : engine (* the outcome of choose_engine *) }.

(** core.py L92-139. [sugg] is the address of model_configuration.suggested_init (that field of c is not used). *)
Definition prepare (h : heap) (sugg : addr) (c : config) (a : fit_args) : heap * (handed + fit_err) :=
  let p := start_place sugg (a_initial a) in
  match fit_bounds c (a_bounds a) (a_fixed a) with
  | inr e => (h, inr (FitConfig e))
  | inl b =>
      let m0 := repeat false (List.length (contents h p)) in
      let items := match a_fixed a with
                   | FNone => []
                   | FScalar v => [(Z.of_nat (poi_index c), v)]
                   | FDict items => items
                   end in
      match pin h p m0 items with
      | (h', inr e) => (h', inr (FitConfig e))
      | (h', inl m) =>
          match (match suggested_fixed c with None => inl m | Some sf => mark_fixed m 0 sf end) with
          | inr e => (h', inr (FitConfig e))
          | inl m' => (h', inl (Handed (contents h' p) m' b (poi_index c) (a_engine a)))
          end
      end
  end.

(** core.py L130-141: the value reported is logpdf(x) when a logpdf is given. *)
Definition fit {F} (minimiser : handed -> F * list fl) (logpdf : option (list fl -> F))
    (h : heap) (sugg : addr) (c : config) (a : fit_args) : heap * (F * list fl + fit_err) :=
  match prepare h sugg c a with
  | (h', inr e) => (h', inr e)
  | (h', inl call) =>
      let '(fun_, x) := minimiser call in
      (h', inl (match logpdf with None => fun_ | Some g => g x end, x))
  end.

(** A history of fits on one model. *)
Fixpoint fits (h : heap) (sugg : addr) (c : config) (l : list fit_args) : heap * list (handed + fit_err) :=
  match l with
  | [] => (h, [])
  | a :: rest =>
      let '(h1, r) := prepare h sugg c a in
      let '(h2, rs) := fits h1 sugg c rest in (h2, r :: rs)
  end.

(** ** optimizer/scipy_tools.py minimize *)

(** A constraint: one of the caller's (opaque) or vector[index] - value = 0 (L77-81). *)
Inductive constr := Caller (n : nat) | Pin (i : nat) (v : fl).

(** L88-96 *)
Fixpoint pins (i : nat) (start : list fl) (mask : list bool) : list constr + cfg_err :=
  match mask with
  | [] => inl []
  | b :: rest =>
      if b then
        match nth_error start i with
        | None => inr IndexError
        | Some v => match pins (S i) start rest with inr e => inr e | inl t => inl (Pin i v :: t) end
        end
      else pins (S i) start rest
  end.

(** Python's min of two floats. *)
Definition py_min (x y : fl) : fl := if fltb y x then y else x.

(** L122-126: one bound at position bdx; arithmetic on None raises TypeError. *)
Definition widen1 (poi : Z) (bdx : nat) (b : bound) : bound + cfg_err :=
  if Z.eqb (Z.of_nat bdx) poi then
    match snd b with None => inr TypeError | Some hi => inl (fst b, Some (fscale 2 hi)) end
  else
    match fst b, snd b with
    | Some lo, Some hi => inl (Some (py_min lo (fscale 10 lo)), Some (fscale 10 hi))
    | _, _ => inr TypeError
    end.

(** The caller's three containers and the working copies live in one heap of cells. *)
Inductive cell := CInit (l : list fl) | CBounds (l : list bound) | CCons (l : list constr).
Definition cells := list cell.
Definition alloc (h : cells) (c : cell) : cells * addr := (h ++ [c], List.length h).
Definition get_init (h : cells) (a : addr) : list fl := match nth_error h a with Some (CInit l) => l | _ => [] end.
Definition get_bounds (h : cells) (a : addr) : list bound := match nth_error h a with Some (CBounds l) => l | _ => [] end.
Definition get_cons (h : cells) (a : addr) : list constr := match nth_error h a with Some (CCons l) => l | _ => [] end.

(** L122-126: the loop over enumerate(bounds) assigns in place. [todo] counts the positions still to visit. *)
Fixpoint widen (h : cells) (ba : addr) (poi : Z) (bdx todo : nat) : cells * option cfg_err :=
  match todo with
  | O => (h, None)
  | S k =>
      match nth_error (get_bounds h ba) bdx with
      | None => (h, None)
      | Some b =>
          match widen1 poi bdx b with
          | inr e => (h, Some e)
          | inl b' => widen (upd h ba (CBounds (upd (get_bounds h ba) bdx b'))) ba poi (S bdx) k
          end
      end
  end.

(** One run of scipy.optimize.minimize: what it was given and what it answered. *)
Record run := Run { r_start : list fl; r_bounds : option (list bound); r_cons : list constr }.
Record outcome := Outcome { o_success : bool; o_x : list fl; o_fun : fl }.

Section ScipyLoop.
  (** scipy's answer may depend on everything that happened before: it sees the earlier runs. *)
  Variable scipy : list run -> run -> outcome.

  (** L98-128; [left] is ntrials - ntrial before the iteration, [past] the runs so far, most recent last. *)
  Fixpoint trials (h : cells) (ia : addr) (ba : option addr) (ca : addr) (poi : Z) (left : nat) (past : list run)
      : cells * list run * (outcome + cfg_err) :=
    let r := Run (get_init h ia) (option_map (get_bounds h) ba) (get_cons h ca) in
    let o := scipy past r in
    match left with
    | O | S O => (h, past ++ [r], inl o)
    | S left' =>
        if o_success o then (h, past ++ [r], inl o)
        else
          let '(h1, ia') := alloc h (CInit (o_x o)) in
          match ba with
          | None => (h1, past ++ [r], inr TypeError)
          | Some b =>
              match widen h1 b poi 0 (List.length (get_bounds h1 b)) with
              | (h2, Some e) => (h2, past ++ [r], inr e)
              | (h2, None) => trials h2 ia' ba ca poi left' (past ++ [r])
              end
          end
    end.

  (** L83-138. ntrials is taken to be an integer. init_pars, bounds, constraints are addresses of the caller's lists. *)
  Definition scipy_minimize (h : cells) (init_pars : addr) (bounds constraints : option addr) (mask : list bool)
      (ntrials : Z) (poi : Z) : cells * list run * (outcome + cfg_err) :=
    let '(h1, ca) := alloc h (CCons (match constraints with None => [] | Some a => get_cons h a end)) in
    let '(h2, ia) := alloc h1 (CInit (get_init h init_pars)) in
    let '(h3, ba) := match bounds with
                     | None => (h2, None)
                     | Some a => let '(h', b) := alloc h2 (CBounds (get_bounds h a)) in (h', Some b)
                     end in
    match pins 0 (get_init h3 ia) mask with
    | inr e => (h3, [], inr e)
    | inl ps =>
        let h4 := upd h3 ca (CCons (get_cons h3 ca ++ ps)) in
        trials h4 ia ba ca poi (Z.to_nat (Z.max ntrials 1)) []
    end.
End ScipyLoop.

(** ** optimizer/__init__.py ValidateOpts *)
Section Options.
  Variable V : Type.
  Definition dict := list (string * V).
  Inductive opt_err := AssertionError | KeyError | OptValueError.

  Definition has (k : string) (d : dict) : bool := existsb (fun kv => String.eqb (fst kv) k) d.
  Fixpoint lookup (k : string) (d : dict) : option V :=
    match d with [] => None | (k', v) :: t => if String.eqb k' k then Some v else lookup k t end.
  (** dict.pop(key) without a default *)
  Definition pop (k : string) (d : dict) : dict + opt_err :=
    if has k d then inl (filter (fun kv => negb (String.eqb (fst kv) k)) d) else inr KeyError.

  Record rules := Rules { opt_list : list string; must_list : list string; remove_list : list string }.
  Definition mem (k : string) (l : list string) : bool := existsb (String.eqb k) l.

  (** __init__.py L56-61, one key after another of the snapshot list(options) *)
  Fixpoint validate_loop (r : rules) (keys : list string) (d : dict) : dict + opt_err :=
    match keys with
    | [] => inl d
    | k :: rest =>
        match (if negb (mem k (opt_list r ++ must_list r ++ remove_list r)) then pop k d else inl d) with
        | inr e => inr e
        | inl d1 =>
            match (if mem k (remove_list r) then pop k d1 else inl d1) with
            | inr e => inr e
            | inl d2 => validate_loop r rest d2
            end
        end
    end.
  (** __init__.py L40-62 *)
  Definition validate (r : rules) (d : dict) : dict + opt_err :=
    if negb (forallb (fun k => has k d) (must_list r)) then inr AssertionError
    else validate_loop r (map fst d) d.

  (** scipy_tools.py L16-18 and minuit_tools.py L13-16: the two rule sets *)
  Definition scipy_rules : rules := Rules ["method"; "maxiter"; "disp"; "tol"; "ntrials"]%string ["poi_index"]%string [].
  Definition minuit_rules : rules :=
    Rules ["errordef"; "maxiter"; "disp"; "tol"; "strategy"; "method"]%string [] ["poi_index"]%string.

  (** dict.pop(key, default), dict.setdefault *)
  Definition pop_default (k : string) (v : V) (d : dict) : V * dict :=
    (match lookup k d with Some x => x | None => v end, filter (fun kv => negb (String.eqb (fst kv) k)) d).
  Definition setdefault (k : string) (v : V) (d : dict) : dict := if has k d then d else d ++ [(k, v)].

  (** scipy_tools.py L65-75: method, tol, ntrials, poi_index, and the options dictionary handed to scipy. The
      defaults are parameters because V is opaque. *)
  Definition scipy_options (slsqp tol0 one maxit fals : V) (d : dict) : (V * V * V * V * dict) + opt_err :=
    if negb (has "poi_index" d) then inr AssertionError
    else
      match validate scipy_rules d with
      | inr e => inr e
      | inl d0 =>
          let '(method, d1) := pop_default "method" slsqp d0 in
          let '(tol, d2) := pop_default "tol" tol0 d1 in
          let '(ntrials, d3) := pop_default "ntrials" one d2 in
          match lookup "poi_index" d3, pop "poi_index" d3 with
          | Some poi, inl d4 =>
              inl (method, tol, ntrials, poi, setdefault "disp" fals (setdefault "maxiter" maxit d4))
          | _, _ => inr KeyError
          end
      end.
End Options.
Arguments has {V}. Arguments lookup {V}. Arguments pop {V}. Arguments validate {V}. Arguments validate_loop {V}.
Arguments pop_default {V}. Arguments setdefault {V}. Arguments scipy_options {V}.
