(** Model of the constructors of the four backends with background uncertainties: from the arrays of the user to the terms of the
    likelihood (src/spey/backends/default_pdf/__init__.py). Fixed signal yields, no signal uncertainties. Arrays of matching sizes
    assumed; arithmetic is exact. *)
From Coq Require Import List Reals.
From Verif Require Import Fl ConfigModel HelperModel DistModel DefaultModel ThirdModel.
Import ListNotations.
Local Open Scope R_scope.
Local Open Scope list_scope.

(** what describes the background uncertainties: absolute_uncertainties of UncorrelatedBackground (L880-892), covariance_matrix of
    CorrelatedBackground (L1053-1064), with third_moment of ThirdMomentExpansion (L1204-1217), correlation_matrix and
    absolute_uncertainty_envelops of EffectiveSigma (L1397-1409) *)
Inductive uncertainties :=
| AbsoluteUncertainties (B : vec)
| CovarianceMatrix (cov : mat)
| CovarianceAndThirdMoments (cov : mat) (m3 : vec)
| CorrelationAndEnvelopes (corr : mat) (env : list (R * R)).

(** a list of rows as a function of two indices, and back *)
Definition entry (m : mat) : nat -> nat -> R := fun i j => nth j (nth i m []) 0.
Definition table (n : nat) (m : nat -> nat -> R) : mat := map (fun i => map (m i) (seq 0 n)) (seq 0 n).

(** main_model and constraint_model of DefaultPDFBase (L441-535), which CorrelatedBackground uses *)
Definition correlated_kind (cov : mat) : kind :=
  let n := List.length cov in
  Correlated (map (fun i => sqrt (entry cov i i)) (seq 0 n)) (table n (covariance_to_correlation n (entry cov))).

(** the constructors: L893-940, L1065-1077, L1218-1278, L1410-1481. NotANumber: a coefficient of the expansion is NaN. *)
Inductive built := Built (k : backend) | Refused (e : init_err) | NotANumber.
Definition construct (s b d : vec) (u : uncertainties) : built :=
  match init_default (SArr s) b d None 0 None with
  | inr e => Refused e
  | inl base =>
      match u with
      | AbsoluteUncertainties B => Built (Backend base (Uncorrelated B))
      | CovarianceMatrix cov => Built (Backend base (correlated_kind cov))
      | CovarianceAndThirdMoments cov m3 =>
          match third_moment_expansion b cov m3 with
          | None => NotANumber
          | Some (A, B, C, corr) => Built (Backend base (ThirdMoment A B C (table (List.length cov) corr)))
          end
      | CorrelationAndEnvelopes corr env => match make_effective base env corr with inl k => Built k | inr e => Refused e end
      end
  end.
