(** What a user of cached methods relies on. *)
From Coq Require Import List Arith Bool.
From Verif Require Import CacheModel AccessModel.
Import ListNotations.

(** The method that class bodies [m] (in method resolution order) define under a name: the first body that has the name. *)
Definition defines (m : list (list (nat * attr))) (name : nat) (x : attr) : Prop :=
  exists before b after, m = before ++ b :: after /\ assoc name b = Some x /\ Forall (fun c => assoc name c = None) before.

(** __set_name__ ran for every cached method of the class. *)
Definition named (name_of : nat -> nat) (c : class) : Prop :=
  forall b n x, In b (mro c) -> assoc n b = Some x -> a_cached x = true -> name_of (a_fn x) = n.

Section Spec.
Context {K V X : Type}.
Notation state := (state K V). Notation event := (event K V X). Notation action := (action K).

(** The object at an address has no __dict__. *)
Definition slots_only (s : state) (a : nat) : Prop := forall o, assoc a (objs s) = Some o -> dict o = None.

(** Restrictions on histories. *)
Definition anything (s : state) (x : action) : Prop := True.
Definition no_copies (s : state) (x : action) : Prop := match x with Copy a _ => slots_only s a | _ => True end.
Definition one_thread (s : state) (x : action) : Prop := match x with Finish _ _ => False | _ => no_copies s x end.
Definition no_super (name_of : nat -> nat) (s : state) (x : action) : Prop :=
  match x with New _ c => named name_of c | Super a _ _ _ => slots_only s a | _ => no_copies s x end.

(** The calls and clears of one object's cached method, and their outcomes. *)
Definition about (u f : nat) (e : event) : bool := (e_obj e =? u) && (e_fn e =? f) && e_cached e.
Definition operations (u f : nat) (es : list event) : list (op K) := map e_op (filter (about u f) es).
Definition outcomes (u f : nat) (es : list event) := map e_out (filter (about u f) es).

(** The outcome of calling the function itself. *)
Definition plain_outcome (r : V + X) : outcome V X := match r with inl v => Returned (Stored v) | inr x => Raised x end.
End Spec.
