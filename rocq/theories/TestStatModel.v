(** Model of src/spey/hypothesis_testing/{test_statistics,distributions,utils,asymptotic_calculator,toy_calculator}.py
    and of exclusion_confidence_level / significance in src/spey/base/hypotest_base.py.
    Numbers are [fl] (reals, infinities, NaN); the log-likelihoods are arbitrary functions. *)
From Coq Require Import String List Reals Bool.
From Verif Require Import Fl GaussModel.
Import ListNotations.
Local Open Scope R_scope.
Local Open Scope string_scope.
Local Open Scope list_scope.

Definition zero : fl := Num 0.

(** test_statistics.py L51-57 qmu_tilde *)
Definition qmu_tilde (mu muhat max_logpdf : fl) (logpdf : fl -> fl) : fl :=
  if fgtb muhat mu then zero
  else fclip0 (fscale (-2) (fsub (logpdf mu) (if fgeb muhat zero then max_logpdf else logpdf zero))).

(** test_statistics.py L83 qmu *)
Definition qmu (mu muhat max_logpdf : fl) (logpdf : fl -> fl) : fl :=
  if fgtb muhat mu then zero else fclip0 (fscale (-2) (fsub (logpdf mu) max_logpdf)).

(** test_statistics.py L117 qmu_left *)
Definition qmu_left (mu muhat max_logpdf : fl) (logpdf : fl -> fl) : fl :=
  if fltb muhat mu then zero else fclip0 (fscale (-2) (fsub (logpdf mu) max_logpdf)).

(** test_statistics.py L149 q0 *)
Definition q0 (mu muhat max_logpdf : fl) (logpdf : fl -> fl) : fl :=
  if fltb muhat zero then zero else fclip0 (fscale (-2) (fsub (logpdf zero) max_logpdf)).

Definition teststat := fl -> fl -> fl -> (fl -> fl) -> fl.

Inductive exn := UnknownTestStatistics | AsimovTestStatZero.

(** test_statistics.py L152 _options *)
Definition options : list (string * teststat) :=
  [("qmutilde", qmu_tilde); ("q", qmu); ("q0", q0); ("qmu_left", qmu_left)].

Definition lookup (k : string) : option teststat :=
  match find (fun p => String.eqb (fst p) k) options with Some p => Some (snd p) | None => None end.

Definition in_strs (s : string) (l : list string) : bool := existsb (String.eqb s) l.

(** test_statistics.py L190-200 get_test_statistic *)
Definition get_test_statistic (test_stat : string) : teststat + exn :=
  let test_stat :=
    if in_strs test_stat ["qmu"; "q"] then "q"
    else if in_strs test_stat ["qtilde"; "qmutilde"] then "qmutilde"
    else test_stat in
  match lookup test_stat with
  | None => inr UnknownTestStatistics
  | Some f => inl f
  end.

(** test_statistics.py L254-266: the transformation of the two statistics *)
Definition delta_teststat (teststat : string) (qmu_ qmuA : fl) : fl + exn :=
  let sqrt_qmu := fsqrt qmu_ in
  let sqrt_qmuA := fsqrt qmuA in
  if in_strs teststat ["q"; "q0"; "qmu"] then inl (fsub sqrt_qmu sqrt_qmuA)
  else if fleb sqrt_qmu sqrt_qmuA then inl (fsub sqrt_qmu sqrt_qmuA)
  else
    let d := fdiv (fsub qmu_ qmuA) (fscale 2 sqrt_qmuA) in
    if feqb sqrt_qmuA zero then inr AsimovTestStatZero else inl d.

(** test_statistics.py L246-270 compute_teststatistics; [maximum_likelihood] is (muhat, min_nll) *)
Definition compute_teststatistics (mu : fl) (maximum_likelihood : fl * fl) (logpdf : fl -> fl)
    (maximum_asimov_likelihood : fl * fl) (asimov_logpdf : fl -> fl) (teststat : string)
    : (fl * fl * fl) + exn :=
  match get_test_statistic teststat with
  | inr e => inr e
  | inl f =>
      let '(muhat, min_nll) := maximum_likelihood in
      let '(muhatA, min_nllA) := maximum_asimov_likelihood in
      let qmu_ := f mu muhat (fneg min_nll) logpdf in
      let qmuA := f mu muhatA (fneg min_nllA) asimov_logpdf in
      match delta_teststat teststat qmu_ qmuA with
      | inr e => inr e
      | inl d => inl (fsqrt qmu_, fsqrt qmuA, d)
      end
  end.

(** scipy.stats.norm.cdf on floats *)
Definition norm_cdf (x : fl) : fl :=
  match x with Num a => Num (Phi a) | PInf => Num 1 | NInf => Num 0 | NaN => NaN end.

Section Distributions.

(** distributions.py L112 calls numpy.percentile(samples, p, method="linear"); parameter here,
    [percentile] below is the instance for finite samples. [cdf] is scipy's norm.cdf: a parameter
    because floating-point tails reach exactly 0, which the exact function [norm_cdf] does not. *)
Variable cdf : fl -> fl.
Variable pct : list fl -> fl -> fl.

(** distributions.py L27-29, L84-85: the two distribution objects *)
Inductive dist :=
| Asymptotic (shift cutoff : fl)
| Empirical (samples : list fl).

Definition count (p : fl -> bool) (l : list fl) : nat := List.length (filter p l).

(** distributions.py L42-43 and L99 pvalue *)
Definition pvalue (d : dist) (value : fl) : fl :=
  match d with
  | Asymptotic shift cutoff =>
      let r := cdf (fsub shift value) in
      if fgeb r cutoff then r else NaN
  | Empirical samples =>
      fdiv (Num (INR (count (fun s => fgeb s value) samples))) (Num (INR (List.length samples)))
  end.

(** distributions.py L70-71 and L112 expected_value *)
Definition expected_value (d : dist) (nsigma : R) : fl :=
  match d with
  | Asymptotic shift cutoff =>
      let tot := fadd (Num nsigma) shift in
      if fgtb tot cutoff then tot else cutoff
  | Empirical samples => pct samples (fscale 100 (cdf (Num nsigma)))
  end.

(** utils.py L67-72 pvalues: (p_sb, p_b, p_s) *)
Definition pvalues (delta : fl) (sb b : dist) : fl * fl * fl :=
  let p_sb := pvalue sb delta in
  let p_b := pvalue b delta in
  let p_s := fdiv p_sb p_b in
  (p_sb, p_b, if negb (feqb p_b zero) then p_s else zero).

(** utils.py L114-128 expected_pvalues: three lists of five values *)
Definition expected_pvalues (sb b : dist) : list fl * list fl * list fl :=
  let l := map (fun nsigma => pvalues (expected_value b nsigma) sb b) [2; 1; 0; -1; -2] in
  (map (fun t => fst (fst t)) l, map (fun t => snd (fst t)) l, map snd l).

(** common tail of asymptotic_calculator.py L82-89 and toy_calculator.py L60-67 *)
Definition confidence_level (test_statistic : fl) (sb b : dist) (test_stat : string)
    : list fl * list fl :=
  let '(CLsb_obs, CLb_obs, CLs_obs) := pvalues test_statistic sb b in
  let '(CLsb_exp, CLb_exp, CLs_exp) := expected_pvalues sb b in
  if String.eqb test_stat "q0" then ([CLsb_obs], CLsb_exp) else ([CLs_obs], CLs_exp).

(** asymptotic_calculator.py L79-89 compute_asymptotic_confidence_level *)
Definition compute_asymptotic_confidence_level (sqrt_qmuA delta : fl) (test_stat : string) :=
  confidence_level delta (Asymptotic (fneg sqrt_qmuA) NInf) (Asymptotic zero NInf) test_stat.

(** toy_calculator.py L53-67 compute_toy_confidence_level *)
Definition compute_toy_confidence_level (sig_like bkg_like : list fl) (test_statistic : fl) (test_stat : string) :=
  confidence_level test_statistic (Empirical sig_like) (Empirical bkg_like) test_stat.

(** What the caller asked for: an ExpectationType or the string "all" (hypotest_base.py L940). *)
Inductive expectation := observed | aposteriori | apriori | all_.

(** The two result shapes of exclusion_confidence_level. *)
Inductive cl_result :=
| Values (l : list fl)
| Both (obs exp : list fl)
| Raised (e : exn).

(** hypotest_base.py L1125-1133: from p-values to what is returned *)
Definition report (expected : expectation) (pv epv : list fl) : cl_result :=
  let one_minus x := fsub (Num 1) x in
  match expected with
  | all_ => Both (map one_minus pv) (map one_minus epv)
  | _ =>
      Values (map (fun x => if negb (isnan x) then one_minus x else zero)
                  (match expected with observed => pv | _ => epv end))
  end.

(** hypotest_base.py L976 *)
Definition choose_stat (allow_negative_signal : bool) : string :=
  if allow_negative_signal then "q" else "qtilde".

(** hypotest_base.py L1007-1041: asymptotic branch. The fits of _prepare_for_hypotest (L781-812) are
    parameters. UnknownTestStatistics is not caught. *)
Definition exclusion_asymptotic (expected : expectation) (allow_negative_signal : bool) (poi_test : fl)
    (maximum_likelihood : fl * fl) (logpdf : fl -> fl)
    (maximum_asimov_likelihood : fl * fl) (logpdf_asimov : fl -> fl) : cl_result :=
  let test_stat := choose_stat allow_negative_signal in
  match compute_teststatistics poi_test maximum_likelihood logpdf maximum_asimov_likelihood logpdf_asimov test_stat with
  | inl (_, sqrt_qmuA, delta) =>
      let '(pv, epv) := compute_asymptotic_confidence_level sqrt_qmuA delta test_stat in
      report expected pv epv
  | inr AsimovTestStatZero => report expected [Num 1] (repeat (Num 1) 5)
  | inr e => Raised e
  end.

(** hypotest_base.py L1005, L1043-1092: toy branch. [sig], [bkg] are the per-toy fits
    (muhat, min_nll, logpdf); zip truncates to the shorter list. *)
Definition exclusion_toy (expected : expectation) (allow_negative_signal : bool) (poi_test : fl)
    (muhat min_negloglike : fl) (logpdf : fl -> fl)
    (sig bkg : list (fl * fl * (fl -> fl))) : cl_result :=
  let test_stat := choose_stat allow_negative_signal in
  match get_test_statistic test_stat with
  | inr e => Raised e
  | inl f =>
      let stat := fun t : fl * fl * (fl -> fl) => f poi_test (fst (fst t)) (fneg (snd (fst t))) (snd t) in
      let zipped := combine sig bkg in
      let '(pv, epv) := compute_toy_confidence_level
          (map (fun p => stat (fst p)) zipped) (map (fun p => stat (snd p)) zipped)
          (f poi_test muhat (fneg min_negloglike) logpdf) test_stat in
      report expected (map fclip01 pv) (map fclip01 epv)
  end.

(** hypotest_base.py L1005, L1094-1123: chi_square branch. The ZeroDivisionError branch is unreachable with
    numpy floats (numpy divides by zero without raising); it is therefore not modelled. *)
Definition exclusion_chi_square (expected : expectation) (allow_negative_signal : bool) (poi_test : fl)
    (muhat min_negloglike : fl) (logpdf : fl -> fl) : cl_result :=
  let test_stat := choose_stat allow_negative_signal in
  match get_test_statistic test_stat with
  | inr e => Raised e
  | inl f =>
      let ts_s_b := f poi_test muhat (fneg min_negloglike) logpdf in
      let null_logpdf := logpdf zero in
      let max_logpdf :=
        if orb (fgeb muhat zero) (String.eqb test_stat "q") then fneg min_negloglike else null_logpdf in
      let ts_b_only := fclip0 (fscale (-2) (fsub null_logpdf max_logpdf)) in
      let sqrt_ts_s_b := fsqrt ts_s_b in
      let sqrt_ts_b_only := fsqrt ts_b_only in
      let delta_ts :=
        if orb (String.eqb test_stat "q") (fleb sqrt_ts_s_b sqrt_ts_b_only)
        then fsub sqrt_ts_b_only sqrt_ts_s_b
        else fdiv (fsub ts_b_only ts_s_b) (fscale 2 sqrt_ts_s_b) in
      let '(pv, epv) := compute_asymptotic_confidence_level sqrt_ts_s_b delta_ts test_stat in
      report expected pv epv
  end.

(** hypotest_base.py L1178-1197 significance: (sqrt_q0A, sqrt_q0, pvalues, expected_pvalues) *)
Definition significance (maximum_likelihood : fl * fl) (logpdf : fl -> fl)
    (maximum_asimov_likelihood : fl * fl) (logpdf_asimov : fl -> fl) : (fl * fl * list fl * list fl) + exn :=
  match compute_teststatistics zero maximum_likelihood logpdf maximum_asimov_likelihood logpdf_asimov "q0" with
  | inr e => inr e
  | inl (sqrt_q0, sqrt_q0A, delta) =>
      let '(pv, epv) := compute_asymptotic_confidence_level sqrt_q0A delta "q0" in
      inl (sqrt_q0A, sqrt_q0, pv, epv)
  end.

End Distributions.

(** numpy.percentile(samples, p, method="linear") for finite samples, used at distributions.py L112:
    sort, then interpolate linearly at position (n-1) p/100. An empty sample gives 0 here (numpy raises). *)
Fixpoint insert_sorted (x : R) (l : list R) : list R :=
  match l with
  | [] => [x]
  | y :: r => if Rle_dec x y then x :: l else y :: insert_sorted x r
  end.

Definition sort_R (l : list R) : list R := fold_right insert_sorted [] l.

(** piecewise linear interpolation through (0, l0), (1, l1), ... at position h, constant outside *)
Fixpoint interp (l : list R) (h : R) : R :=
  match l with
  | [] => 0
  | x :: r =>
      match r with
      | [] => x
      | y :: _ =>
          if Rle_dec h 0 then x else if Rle_dec h 1 then x + h * (y - x) else interp r (h - 1)
      end
  end.

Definition percentile (samples : list R) (p : R) : R :=
  interp (sort_R samples) (INR (List.length samples - 1) * (p / 100)).
