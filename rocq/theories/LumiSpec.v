(** Vocabulary for more data of the same kind. *)
From Coq Require Import List Reals.
From Verif Require Import HelperModel DistModel DefaultModel DefaultSpec BinsSpec WidthSpec.
Local Open Scope R_scope.

Definition times (factor : R) (v : vec) : vec := map (Rmult factor) v.
(** More luminosity: the second experiment has the signals, the backgrounds and their absolute uncertainties of the first, times a common
    factor of at least one, and their correlations. The observed counts may be any. *)
Definition more_data (factor : R) (x x' : experiment) : Prop :=
  1 <= factor /\ bins x' = bins x /\ x_signal x' = times factor (x_signal x) /\ x_background x' = times factor (x_background x) /\
  spread x' = times factor (spread x) /\ correlations (x_kind x') = correlations (x_kind x).
(** Yields stay away from the floor of 1e-20 of the Poisson distribution: the uncertainties are not correlated, or backgrounds are kept from
    going negative and every bin has a signal. *)
Definition away_from_floor (enforced : bool) (x : experiment) (mu : R) : Prop :=
  correlations (x_kind x) = None \/ (enforced = true /\ List.Forall (fun s => / 10 ^ 20 <= mu * s) (x_signal x)).
