(** Specification of the result cache, written without the model's helpers.

    The abstract cache is a list of (key, value) pairs, oldest insertion first. *)
From Coq Require Import List Arith Bool Lia.
From Verif Require Import CacheModel.
Import ListNotations.

Section Spec.
Context {K V X : Type} (keq : forall a b : K, {a = b} + {a <> b}).

(** The value stored for a key, if any. *)
Definition sfind (k : K) (l : list (K * V)) : option V :=
  match find (fun p => if keq k (fst p) then true else false) l with
  | Some (_, v) => Some v
  | None => None
  end.

(** Keep only the [m] newest insertions. *)
Definition newest (maxsize : option nat) (l : list (K * V)) : list (K * V) :=
  match maxsize with
  | None => l
  | Some m => skipn (length l - m) l
  end.

(** A hit changes nothing; a successful miss appends and drops the oldest; a failing
    miss changes nothing. *)
Definition spec_call (maxsize : option nat) (fn : K -> V + X) (l : list (K * V)) (k : K)
  : list (K * V) * (V + X) :=
  match sfind k l with
  | Some v => (l, inl v)
  | None => match fn k with
            | inl v => (newest maxsize (l ++ [(k, v)]), inl v)
            | inr x => (l, inr x)
            end
  end.

End Spec.

(** ** Vocabulary for concurrent executions *)

Section Conc.
Context {K V X : Type}.

(** The activation is inside the wrapped function for [k], or has left it and not yet
    recorded its outcome. *)
Definition computing (k : K) (l : loc K V X) : Prop :=
  l = Running k \/ (exists v, l = Storing k v) \/ (exists x, l = Failing k x).

(** The call has ended (or none was made). *)
Definition finished (l : loc K V X) : Prop := l = Idle \/ exists k o, l = Done k o.

(** Nobody clears the cache and every key used is in [ks]. *)
Definition undisturbed (ks : list K) (acts : list (act K V X)) : Prop :=
  forall a, In a acts -> match a with Clear => False | Call _ k => In k ks | _ => True end.

(** The keys fit into the cache. *)
Definition fits (maxsize : option nat) (ks : list K) : Prop :=
  match maxsize with None => True | Some m => length ks <= m end.

(** An action of a call already under way: a step of the wrapper, or the wrapped
    function returning or raising (as opposed to a new call or a clear). *)
Definition progress_action (a : act K V X) : bool :=
  match a with Call _ _ | Clear => false | _ => true end.

End Conc.
