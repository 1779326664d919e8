(** Vocabulary for likelihood ratios and significances of regions with uncertain backgrounds. *)
From Coq Require Import List Reals.
From Verif Require Import HelperModel DistModel DefaultModel CountSpec ParabolaSpec BinsSpec WidthSpec.
Import ListNotations.
Local Open Scope R_scope.

(** Twice the negative log of the likelihood of a bin, relative to that of a perfect description: n events, background b with uncertainty B,
    signal m. The yield y is the best for this signal; its distance to n is priced by the Poisson law, that to m + b by the uncertainty. *)
Definition bin_misfit (enforced : bool) (n B b m : R) : R := let y := settled enforced n B b m in 2 * (y - n - n * ln (y / n)) + ((y - (m + b)) / B) ^ 2.
Definition misfit_at (enforced : bool) (s b B n : vec) (mu : R) : R := over_bins s (fun i => bin_misfit enforced (nth i n 0) (nth i B 0) (nth i b 0) (mu * nth i s 0)).
(** The square of the significance of n events over a background of b +- B: with y the background the events pull the expectation to,
    2 (n ln (n / y) - (n - y)) + ((y - b) / B)^2, and 0 if there is no excess *)
Definition uncertain_q0 (b B n : R) : R := if Rle_dec n b then 0 else let y := pulled n B b in 2 * (n * ln (n / y) - (n - y)) + ((y - b) / B) ^ 2.
(** A region with signal s, background b +- B and n events *)
Definition region (s b n B : R) : experiment := Experiment [s] [b] [n] (Uncorrelated [B]).
