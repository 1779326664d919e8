(** Model of the answers of a cached function as objects: src/spey/system/cache.py L404-498 (wrapper, cache_clear and get_cache of a plain
    function) and L244-326 (the same for a method bound to an object), one call after another. Objects live in a heap and are shared by
    reference; what callers do with the objects they hold is part of the history.
    Simplifications: containers have positions only; objects without cycles; copy.deepcopy copies a shared part once for every place it is
    in (Python keeps the sharing); keys are numbers (CacheKeyModel has the keys); no threads (CacheModel has them). *)
From Coq Require Import List ZArith Bool Arith.
Import ListNotations.

(** A number (or any immutable value), or a reference to a container. *)
Inductive val := Atom (z : Z) | Ref (a : nat).
(** The contents of the containers, by address *)
Definition heap := list (list val).

(** copy.deepcopy. None: the number of nested containers allowed by the model is not enough, or a dangling reference. *)
Fixpoint copy_all (copy : heap -> val -> option (heap * val)) (h : heap) (l : list val) : option (heap * list val) :=
  match l with
  | [] => Some (h, [])
  | v :: t =>
      match copy h v with
      | None => None
      | Some (h1, v') => match copy_all copy h1 t with Some (h2, t') => Some (h2, v' :: t') | None => None end
      end
  end.
Fixpoint deepcopy (fuel : nat) (h : heap) (v : val) : option (heap * val) :=
  match v with
  | Atom z => Some (h, Atom z)
  | Ref a =>
      match fuel with
      | O => None
      | S n => match nth_error h a with
               | None => None
               | Some l => match copy_all (deepcopy n) h l with
                           | Some (h', l') => Some (h' ++ [l'], Ref (length h'))
                           | None => None
                           end
               end
      end
  end.

(** The heap, the cache with its oldest entry first, and what callers hold *)
Record world := World { w_heap : heap; w_cache : list (nat * val); w_held : list val }.

Section Cache.
  (** The decorated function: what it computes for a key, in the heap it finds *)
  Variable fn : nat -> heap -> heap * val.
  Variable copy_on_return : bool.
  Variable maxsize : option nat.
  Variable fuel : nat.

  (** L428, L444, L475: copy.deepcopy(value) if copy_on_return else value *)
  Definition answer (h : heap) (v : val) : option (heap * val) := if copy_on_return then deepcopy fuel h v else Some (h, v).
  Definition found (c : list (nat * val)) (k : nat) : option val :=
    match find (fun e => Nat.eqb (fst e) k) c with Some e => Some (snd e) | None => None end.
  (** L464-470: the oldest entries go while there are more than maxsize. *)
  Definition evict (c : list (nat * val)) : list (nat * val) :=
    match maxsize with None => c | Some n => skipn (length c - n) c end.
  (** L413-475 wrapper: the answer is handed to the caller, who holds it from then on. *)
  Definition call (w : world) (k : nat) : option (world * val) :=
    match found (w_cache w) k with
    | Some v => match answer (w_heap w) v with
                | Some (h, x) => Some (World h (w_cache w) (x :: w_held w), x)
                | None => None
                end
    | None => let '(h1, v) := fn k (w_heap w) in
              match answer h1 v with
              | Some (h2, x) => Some (World h2 (evict (w_cache w ++ [(k, v)])) (x :: w_held w), x)
              | None => None
              end
    end.

  (** What happens: calls, cache_clear (L478-483), get_cache (L490-493, always a deep copy), and the callers' own doings: making a
      container, taking an entry out of one, and writing an entry. *)
  Inductive event :=
  | Call (k : nat)
  | Clear
  | GetCache
  | Make (l : list val)
  | Take (a i : nat)
  | Write (a i : nat) (v : val).
  Fixpoint replace (l : list val) (i : nat) (v : val) : list val :=
    match l, i with
    | [], _ => []
    | _ :: t, O => v :: t
    | x :: t, S i => x :: replace t i v
    end.
  Fixpoint update (h : heap) (a i : nat) (v : val) : heap :=
    match h, a with
    | [], _ => []
    | l :: t, O => replace l i v :: t
    | l :: t, S a => l :: update t a i v
    end.
  Definition val_eqb (x y : val) : bool :=
    match x, y with Atom a, Atom b => Z.eqb a b | Ref a, Ref b => Nat.eqb a b | _, _ => false end.
  (** Callers can only use what they hold (numbers are free); anything else does not happen. *)
  Definition usable (w : world) (v : val) : bool := match v with Atom _ => true | Ref _ => existsb (val_eqb v) (w_held w) end.
  Definition step (w : world) (e : event) : option world :=
    match e with
    | Call k => match call w k with Some (w', _) => Some w' | None => None end
    | Clear => Some (World (w_heap w) [] (w_held w))
    | GetCache => match copy_all (deepcopy fuel) (w_heap w) (map snd (w_cache w)) with
                  | Some (h, l) => Some (World h (w_cache w) (l ++ w_held w))
                  | None => None
                  end
    | Make l => if forallb (usable w) l then Some (World (w_heap w ++ [l]) (w_cache w) (Ref (length (w_heap w)) :: w_held w)) else Some w
    | Take a i => if usable w (Ref a) then
                    match nth_error (w_heap w) a with
                    | Some l => match nth_error l i with Some v => Some (World (w_heap w) (w_cache w) (v :: w_held w)) | None => Some w end
                    | None => Some w
                    end
                  else Some w
    | Write a i v => if andb (usable w (Ref a)) (usable w v) then Some (World (update (w_heap w) a i v) (w_cache w) (w_held w)) else Some w
    end.
  Fixpoint run (w : world) (l : list event) : option world :=
    match l with
    | [] => Some w
    | e :: t => match step w e with Some w' => run w' t | None => None end
    end.
End Cache.
