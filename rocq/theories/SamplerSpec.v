(** Probabilities of pseudo-data. *)
From Coq Require Import List Reals.
From Verif Require Import DistModel DistSpec SamplerModel.
Import ListNotations.
Local Open Scope R_scope.

(** the probability that independent draws give these counts *)
Fixpoint chance (laws : list law) (counts : list nat) : R :=
  match laws, counts with
  | [], [] => 1
  | PoissonLaw m :: ls, n :: ns => poisson_pmf n m * chance ls ns
  | _, _ => 0
  end.
(** the probability density of independent normal draws *)
Fixpoint density (laws : list law) (xs : list R) : R :=
  match laws, xs with
  | [], [] => 1
  | NormalLaw m w :: ls, x :: t => gauss_density x m w * density ls t
  | _, _ => 0
  end.
