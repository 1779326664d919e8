(** Closed forms for Gaussian counting experiments. *)
From Coq Require Import List Reals.
From Verif Require Import GaussModel HelperModel DistModel DefaultModel DefaultSpec.
Import ListNotations.
Local Open Scope R_scope.
Local Open Scope list_scope.

(** One number per bin: signal s, background b, observation n, width sigma > 0; some bin has signal. *)
Definition gaussian_experiment (s b n sigma : vec) : Prop :=
  List.length b = List.length s /\ List.length n = List.length s /\ List.length sigma = List.length s /\
  List.Forall (fun x => 0 < x) sigma /\ exists i, (i < List.length s)%nat /\ nth i s 0 <> 0.
Definition over_bins (s : vec) (f : nat -> R) : R := sum_over (seq 0 (List.length s)) f.
(** 1 / sd^2 = sum_i s_i^2 / sigma_i^2 and mu0 = sd^2 sum_i s_i (n_i - b_i) / sigma_i^2 *)
Definition information (s sigma : vec) : R := over_bins s (fun i => nth i s 0 ^ 2 / nth i sigma 0 ^ 2).
Definition error_of (s sigma : vec) : R := / sqrt (information s sigma).
Definition estimate (s b n sigma : vec) : R := over_bins s (fun i => nth i s 0 * (nth i n 0 - nth i b 0) / nth i sigma 0 ^ 2) / information s sigma.

(** The same for correlated bins with inverse covariance K. *)
Definition cross (x : vec) (K : mat) (y : vec) : R := over_bins x (fun j => over_bins x (fun i => nth i x 0 * nth j (nth i K []) 0 * nth j y 0)).
Definition difference (n b : vec) : vec := map (fun i => nth i n 0 - nth i b 0) (seq 0 (List.length n)).
Definition correlated_experiment (s b n : vec) (K : mat) : Prop :=
  List.length b = List.length s /\ List.length n = List.length s /\ List.length K = List.length s /\ 0 < quad_form s K.
Definition correlated_error (s : vec) (K : mat) : R := / sqrt (quad_form s K).
Definition correlated_estimate (s b n : vec) (K : mat) : R :=
  (cross s K (difference n b) + cross (difference n b) K s) / 2 / quad_form s K.

(** Exclusion levels of an estimate mu0 with error sd: 1 - CLs for the observation, and for a fluctuation of the background by N
    standard deviations. *)
Definition gaussian_level (mu0 sd : R) (band : option R) (mu : R) : R :=
  match band with
  | None => 1 - Phi ((mu0 - mu) / sd) / Phi (mu0 / sd)
  | Some N => 1 - Phi (- N - mu / sd) / Phi (- N)
  end.
(** y is the limit at level cl *)
Definition gaussian_limit (mu0 sd cl : R) (band : option R) (y : R) : Prop :=
  match band with
  | None => Rmax 0 mu0 <= y /\ Phi ((mu0 - y) / sd) = (1 - cl) * Phi (mu0 / sd)
  | Some N => 0 <= y /\ Phi (- N - y / sd) = (1 - cl) * Phi (- N)
  end.

(** muhat is the best fit among the strengths from m on, with value x *)
Definition best_above (m : R) (f : R -> res R) (muhat x : R) : Prop :=
  m <= muhat /\ f muhat = Ok x /\ forall mu y, m <= mu -> f mu = Ok y -> x <= y.
