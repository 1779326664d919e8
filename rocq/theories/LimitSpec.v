(** Vocabulary for the statements about upper limits. *)
From Coq Require Import List Reals String.
From Verif Require Import Fl LimitModel.
Import ListNotations.
Local Open Scope R_scope.

(** f returns ordinary numbers on [a,b] *)
Definition finite_on (f : pyfun) (a b : R) : Prop := forall x, a <= x <= b -> exists r, f x = inl (Num r).

(** x sits, up to tol, on a sign change (or zero) of f inside [a,b] *)
Definition crossing (tol : R) (f : pyfun) (a b x : R) : Prop :=
  exists u v p q, a <= u /\ u <= x /\ x <= v /\ v <= b /\ v - u <= tol /\
    f u = inl (Num p) /\ f v = inl (Num q) /\ p * q <= 0.

(** What is assumed of scipy.optimize.toms748: it rejects an empty or reversed interval, and on an interval
    with a sign change (or a zero at an end) it returns a point at a sign change. *)
Definition good_solver (tol : R) (toms748 : pyfun -> R -> R -> R + lim_err) : Prop :=
  (forall f a b, b <= a -> toms748 f a b = inr SolverError) /\
  (forall f a b p q, a < b -> finite_on f a b -> f a = inl (Num p) -> f b = inl (Num q) -> p * q <= 0 ->
     exists x, toms748 f a b = inl x /\ crossing tol f a b x).

(** the number of limits and the expected band each belongs to *)
Definition band_indices (expected_pvalue : string) : list nat :=
  if String.eqb expected_pvalue "1sigma" then [1; 2; 3]%nat
  else if String.eqb expected_pvalue "2sigma" then [0; 1; 2; 3; 4]%nat else [2]%nat.
