(** Closed forms for Poisson counting experiments. *)
From Coq Require Import List Reals.
From Verif Require Import GaussModel ExclSpec HelperModel DistModel DefaultModel DefaultSpec ParabolaSpec.
Import ListNotations.
Local Open Scope R_scope.
Local Open Scope list_scope.

(** One number per bin: signal s >= 0, background b above the floor of 1e-20 of the Poisson distribution, observed count n >= 0; some bin
    has signal. *)
Definition counting_experiment (s b n : vec) : Prop :=
  List.length b = List.length s /\ List.length n = List.length s /\ List.Forall (fun x => 0 <= x) s /\
  List.Forall (fun x => / 10 ^ 20 < x) b /\ List.Forall (fun x => 0 <= x) n /\ exists i, (i < List.length s)%nat /\ 0 < nth i s 0.
(** Every bin still has events at this strength. *)
Definition yields_positive (s b : vec) (m : R) : Prop := forall i, (i < List.length s)%nat -> / 10 ^ 20 <= m * nth i s 0 + nth i b 0.

(** Median of the statistic for the strength mu if there is no signal: 2 sum_i (mu s_i - b_i ln(1 + mu s_i / b_i)) *)
Definition expected_q (s b : vec) (mu : R) : R :=
  over_bins s (fun i => 2 * (mu * nth i s 0 - nth i b 0 * ln (1 + mu * nth i s 0 / nth i b 0))).
(** Median of the discovery statistic if there is signal: 2 sum_i ((s_i + b_i) ln(1 + s_i / b_i) - s_i), known from the significance
    sqrt(2 ((s + b) ln(1 + s / b) - s)) of one bin *)
Definition discovery_q (s b : vec) : R :=
  over_bins s (fun i => 2 * ((nth i s 0 + nth i b 0) * ln (1 + nth i s 0 / nth i b 0) - nth i s 0)).

(** One bin with n events: statistic for the strength mu, and for discovery *)
Definition observed_q (s b n mu : R) : R :=
  let top := Rmax b n in if Rle_dec (mu * s + b) top then 0 else 2 * (mu * s + b - top - n * ln ((mu * s + b) / top)).
Definition observed_q0 (b n : R) : R := if Rle_dec n b then 0 else 2 * (n * ln (n / b) - (n - b)).

(** Exclusion level in the band of N standard deviations for a median statistic q; y is the limit at level cl. *)
Definition expected_level (q N : R) : R := 1 - Phi (- N - sqrt q) / Phi (- N).
Definition expected_limit (s b : vec) (cl N y : R) : Prop := 0 <= y /\ Phi (- N - sqrt (expected_q s b y)) = (1 - cl) * Phi (- N).

(** The second experiment has all bins of the first, with no less signal and no more background, and perhaps others. *)
Definition at_least_as_good (s b s' b' : vec) : Prop :=
  (List.length s <= List.length s')%nat /\ forall i, (i < List.length s)%nat -> nth i s 0 <= nth i s' 0 /\ nth i b' 0 <= nth i b 0.

(** Exclusion level of one bin with n events: 1 - CLs with the transformed statistic of Cowan et al. *)
Definition observed_level (s b n mu : R) : R :=
  let a := sqrt (expected_q [s] [b] mu) in 1 - CLs a (transformed true (sqrt (observed_q s b n mu)) a).
