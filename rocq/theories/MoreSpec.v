(** Vocabulary for C174 and C175: comparing limits. *)
From Coq Require Import Reals.
From Verif Require Import Fl.
Local Open Scope R_scope.

(** y is no smaller a limit than x, up to twice the tolerance of the solver; nothing is larger than an infinite limit. *)
Definition no_smaller (tol : R) (x y : fl) : Prop :=
  y = PInf \/ exists a b, x = Num a /\ y = Num b /\ a <= b + 2 * tol.
