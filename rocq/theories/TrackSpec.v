(** Vocabulary for recorded evaluations. *)
From Coq Require Import List Reals ZArith.
From Verif Require Import Fl LimitModel.
Import ListNotations.
Local Open Scope R_scope.

(** The calls that returned, with their values, in order *)
Definition answered (f : pyfun) (vs : list R) : list (R * fl) :=
  flat_map (fun v => match f v with inl y => [(v, y)] | inr _ => [] end) vs.
(** The last n elements *)
Definition last_of {A} (n : nat) (l : list A) : list A := skipn (length l - n) l.
(** The points at which a search from x in one direction evaluates: each is the next of the one before it *)
Fixpoint walked (next : R -> R) (l : list R) : Prop :=
  match l with [] => True | x :: t => match t with [] => True | y :: _ => y = next x end /\ walked next t end.
