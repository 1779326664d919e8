(** Vocabulary for confidence intervals of measured signal strengths. *)
From Coq Require Import List Reals.
From Verif Require Import Fl GaussModel HelperModel DistModel DefaultModel LimitModel ScanModel IntervalSpec ParabolaSpec.
Import ListNotations.
Local Open Scope R_scope.

(** What is assumed of scipy.stats.chi2.isf with one degree of freedom: the square of a standard normal variable exceeds isf(a) with
    probability a. *)
Definition chi2_quantile (isf : R -> fl) : Prop := forall a z, 0 < z -> a = 2 * (1 - Phi z) -> isf a = Num (z ^ 2).

(** The profile falls strictly from 0 to c and rises strictly from there on. What it does at negative strengths does not matter. *)
Definition unimodal_from_zero (N : R -> R) (c : R) : Prop :=
  (forall x y, 0 <= x -> x < y -> y <= c -> N y < N x) /\ (forall x y, c <= x -> x < y -> N x < N y).

(** muhat is the best fit among the strengths from m to M, with value x *)
Definition best_within (m M : R) (f : R -> res R) (muhat x : R) : Prop :=
  m <= muhat <= M /\ f muhat = Ok x /\ forall mu y, m <= mu <= M -> f mu = Ok y -> x <= y.

(** The function that the interval is searched with: the likelihood where it has a value *)
Definition profile_is (nll : pyfun) (f : R -> res R) : Prop := forall x v, f x = Ok v -> nll x = inl (Num v).

(** The strength is measured as mu0 with error sd: bins with Gaussian uncertainties, independent or correlated *)
Definition measures (inv : mat -> mat) (sk : simple_kind) (s b n : vec) (mu0 sd : R) : Prop :=
  (exists sigma, sk = SNormal (Const sigma) /\ gaussian_experiment s b n sigma /\ mu0 = estimate s b n sigma /\ sd = error_of s sigma) \/
  (exists cov, sk = SMulti (Const cov) /\ correlated_experiment s b n (inv cov) /\ mu0 = correlated_estimate s b n (inv cov) /\ sd = correlated_error s (inv cov)).
(** Upper end of the strengths whose chi2 relative to the best non-negative strength stays below z^2 *)
Definition upper_end (mu0 sd z : R) : R := mu0 + sqrt ((Rmax 0 mu0 - mu0) ^ 2 + (z * sd) ^ 2).
