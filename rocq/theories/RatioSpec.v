(** Likelihood ratios of Poisson counting experiments. *)
From Coq Require Import List Reals.
From Verif Require Import GaussModel HelperModel DistModel ParabolaSpec.
Import ListNotations.
Local Open Scope R_scope.

(** Twice the logarithm of the ratio of the Poisson likelihoods at the strengths c and mu, for the counts n:
    2 sum_i ((mu - c) s_i - n_i ln((mu s_i + b_i) / (c s_i + b_i))) *)
Definition ratio_chi2 (s b n : vec) (c mu : R) : R :=
  over_bins s (fun i => 2 * ((mu - c) * nth i s 0 - nth i n 0 * ln ((mu * nth i s 0 + nth i b 0) / (c * nth i s 0 + nth i b 0)))).
(** One bin with n events and yield y: 2 (y - n - n ln(y / n)) *)
Definition deviance (n y : R) : R := 2 * (y - n - n * ln (y / n)).
(** Textbook error at the strength c: 1 / sqrt(sum_i s_i^2 n_i / (c s_i + b_i)^2) *)
Definition counting_error (s b n : vec) (c : R) : R :=
  / sqrt (over_bins s (fun i => nth i s 0 ^ 2 * nth i n 0 / (c * nth i s 0 + nth i b 0) ^ 2)).
(** Some bin with signal has events; no bin has a positive count below 1/20. *)
Definition events_seen (s n : vec) : Prop :=
  (exists i, (i < List.length s)%nat /\ nth i s 0 <> 0 /\ 0 < nth i n 0) /\ List.Forall (fun x => x = 0 \/ 1 / 20 <= x) n.
