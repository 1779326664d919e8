(** Vocabulary for the continuity of exclusion levels. *)
From Coq Require Import Reals.
From Verif Require Import ExclSpec UpperSpec.
Local Open Scope R_scope.

(** Both likelihoods are continuous in the strength where it is positive. *)
Definition continuous_likelihoods (F : fits) : Prop := forall mu, 0 < mu -> continuity_pt (f_L F) mu /\ continuity_pt (f_LA F) mu.
(** The fits come with the value of the likelihood at the strength they return. *)
Definition fits_at_their_values (F : fits) : Prop := f_L F (f_muhat F) = - f_nll F /\ f_LA F (f_muhatA F) = - f_nllA F.
(** Statistic of the strength mu for the data, and for the Asimov data *)
Definition q_data (F : fits) (mu : R) : R := q_stat true mu (f_muhat F) (- f_nll F) (f_L F).
Definition q_asimov_data (F : fits) (mu : R) : R := q_stat true mu (f_muhatA F) (- f_nllA F) (f_LA F).
(** A finite value z within tol of a strength at which g is exactly c *)
Definition within_of_solution (tol : R) (g : R -> R) (c z : R) : Prop := exists y, 0 < y /\ Rabs (z - y) <= tol /\ g y = c.
