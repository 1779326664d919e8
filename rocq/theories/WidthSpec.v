(** Vocabulary for experiments with background uncertainties. *)
From Coq Require Import List Reals.
From Verif Require Import GaussModel UpperSpec HelperModel DistModel DefaultModel DefaultSpec ConvexSpec ParabolaSpec BinsSpec.
Import ListNotations.
Local Open Scope R_scope.
Local Open Scope list_scope.

(** The fit at strength mu: r are the other parameters, and no others describe the data better. *)
Definition conditional_fit (n : nat) (ok : vec -> Prop) (f : vec -> res R) (mu : R) (r : vec) : Prop :=
  List.length (mu :: r) = n /\ ok (mu :: r) /\
  exists v, f (mu :: r) = Ok v /\ forall r' v', List.length (mu :: r') = n -> ok (mu :: r') -> f (mu :: r') = Ok v' -> v <= v'.

(** A penalty of half the square of the nuisance parameters, in units of their covariance *)
Definition chi2 (inv : mat -> mat) (x : experiment) (th : vec) : R :=
  match correlations (x_kind x) with None => sum_over (seq 0 (bins x)) (fun i => nth i th 0 ^ 2) | Some c => quad_form th (inv c) end.
(** absolute uncertainties of the backgrounds *)
Definition spread (x : experiment) : vec := match x_kind x with Uncorrelated B | Correlated B _ | ThirdMoment _ B _ _ | Effective B _ _ => B end.
(** Experiments with symmetric background uncertainties: signals s >= 0, some s > 0, backgrounds above the floor of 1e-20 of the Poisson
    distribution, uncertainties that are uncorrelated or have a correlation matrix with a positive inverse. *)
Definition uncertain_experiment (inv : mat -> mat) (x : experiment) : Prop :=
  matching x /\ inverse_sized inv x /\ match x_kind x with Uncorrelated _ | Correlated _ _ => True | _ => False end /\
  List.Forall (fun s => 0 <= s) (x_signal x) /\ (exists i, (i < bins x)%nat /\ 0 < nth i (x_signal x) 0) /\ List.Forall (fun b => / 10 ^ 20 < b) (x_background x) /\
  (forall c th, correlations (x_kind x) = Some c -> List.length th = bins x -> (exists i, (i < bins x)%nat /\ nth i th 0 <> 0) -> 0 < quad_form th (inv c)).

(** The second has the signals and backgrounds of the first and is no more certain of them: whatever shift of the backgrounds the first
    allows for at some price, the second does at no higher price. *)
Definition no_more_certain (inv : mat -> mat) (x x' : experiment) : Prop :=
  x_signal x' = x_signal x /\ x_background x' = x_background x /\ bins x' = bins x /\
  forall th, List.length th = bins x -> exists th', List.length th' = bins x /\
    (forall i, (i < bins x)%nat -> nth i th' 0 * nth i (spread x') 0 = nth i th 0 * nth i (spread x) 0) /\ chi2 inv x' th' <= chi2 inv x th.

(** One bin with n events, expectation a and uncertainty B: the yield it is pulled to, the solution of y = a + t B with t = B (n - y) / y *)
Definition pulled (n B a : R) : R := (a - B ^ 2 + sqrt ((a - B ^ 2) ^ 2 + 4 * n * B ^ 2)) / 2.
(** The yield of the fit in a bin with n events, background b, signal m and uncertainty B. Where backgrounds are kept from going negative
    (enforced), it is at least the signal. *)
Definition settled (enforced : bool) (n B b m : R) : R := let y := pulled n B (m + b) in if enforced then Rmax y m else y.
(** Median statistic of a strength mu if there is no signal: the pull is the distance from the expectation in units of the uncertainty
    (0 for B = 0, where it is 0 / 0 in the formula below) *)
Definition uncertain_bin_q (enforced : bool) (b B m : R) : R := let y := settled enforced b B b m in 2 * (y - b - b * ln (y / b)) + ((y - (m + b)) / B) ^ 2.
Definition uncertain_q (enforced : bool) (s b B : vec) (mu : R) : R := over_bins s (fun i => uncertain_bin_q enforced (nth i b 0) (nth i B 0) (mu * nth i s 0)).
(** The limit for the band N at the confidence level cl: the strength whose expected level is cl *)
Definition uncertain_limit (enforced : bool) (s b B : vec) (cl N y : R) : Prop := 0 <= y /\ Phi (- N - sqrt (uncertain_q enforced s b B y)) = (1 - cl) * Phi (- N).
(** both fits a limit or an exclusion level is computed from: N is the profile of the data, NA that of the Asimov data *)
Definition apriori_fits (enforced : bool) gl inv ld (k : backend) (dA : vec) (N NA : R -> R) (muhat muhatA : R) : Prop :=
  fitted (n_parameters k) (fit_region enforced k (dataset (k_base k) ExpApriori None)) (objective gl inv ld k ExpApriori None) N muhat /\
  fitted (n_parameters k) (fit_region enforced k dA) (objective gl inv ld k ExpApriori (Some dA)) NA muhatA.
(** Asimov data: the fit at the strength mu0 to the data given, and what the model expects there *)
Definition asimov_of (enforced : bool) gl inv ld (k : backend) (e : expectation) (mu0 : R) (aux : bool) (dA : vec) : Prop :=
  exists r, conditional_fit (n_parameters k) (fit_region enforced k (dataset (k_base k) e None)) (objective gl inv ld k e None) mu0 r /\ expected_data k (mu0 :: r) aux = Ok dA.
Definition fits_from (N : R -> R) (muhat : R) (NA : R -> R) (muhatA : R) : fits := Fits muhat (N muhat) (fun m => - N m) muhatA (NA muhatA) (fun m => - NA m).
(** a bin with background b, uncertainty B and signal m whose background would be fitted to a negative yield *)
Definition driven_below_zero (b B m : R) : Prop := b * B ^ 2 < m * (B ^ 2 - b).
