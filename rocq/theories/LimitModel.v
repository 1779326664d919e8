(** Model of src/spey/hypothesis_testing/upper_limits.py (find_root_limits, find_poi_upper_limit,
    bracket_and_solve) and of poi_upper_limit in src/spey/base/hypotest_base.py.
    The functions searched are arbitrary; scipy's toms748 is a parameter. *)
From Coq Require Import String List Reals Bool.
From Verif Require Import Fl TestStatModel.
Import ListNotations.
Local Open Scope R_scope.
Local Open Scope string_scope.
Local Open Scope list_scope.

(** Errors that can leave the functions below. [OutOfFuel] is not an outcome of the code: it says that the
    number of loop iterations allowed by the model was not enough. *)
Inductive lim_err :=
| IndexError | AssertionError | KeyError | SolverError | UncaughtStat (e : exn) | OutOfFuel.

(** A one-dimensional function as called by the search: it may raise. *)
Definition pyfun := R -> fl + lim_err.

(** upper_limits.py L91-93: the lower loop. Returns the last point evaluated. *)
Fixpoint low_loop (fuel : nat) (f : pyfun) (loc low_bound low : R) : (R * fl) + lim_err :=
  match fuel with
  | O => inr OutOfFuel
  | S n =>
      match f low with
      | inr e => inr e
      | inl v =>
          if andb (fgtb v (Num loc)) (Rltb low_bound low)
          then low_loop n f loc low_bound (Rmax (low * (1 / 5)) low_bound)
          else inl (low, v)
      end
  end.

(** upper_limits.py L96-98: the upper loop. *)
Fixpoint hig_loop (fuel : nat) (f : pyfun) (loc hig_bound hig : R) : (R * fl) + lim_err :=
  match fuel with
  | O => inr OutOfFuel
  | S n =>
      match f hig with
      | inr e => inr e
      | inl v =>
          if andb (fltb v (Num loc)) (Rltb hig hig_bound)
          then hig_loop n f loc hig_bound (Rmin (hig * 5) hig_bound)
          else inl (hig, v)
      end
  end.

(** upper_limits.py L64-101 find_root_limits: ((low, f low), (hig, f hig)); the wrappers' history of the last
    ten evaluations is reduced to its last entry, the only one the callers use. *)
Definition find_root_limits (fuel : nat) (f : pyfun) (loc low_ini hig_ini low_bound hig_bound : R)
    : ((R * fl) * (R * fl)) + lim_err :=
  match low_loop fuel f loc low_bound low_ini with
  | inr e => inr e
  | inl lo =>
      match hig_loop fuel f loc hig_bound hig_ini with
      | inr e => inr e
      | inl hi => inl (lo, hi)
      end
  end.

(** numpy.sign *)
Definition fsign (x : fl) : fl :=
  match x with
  | Num r => Num (if Rlt_dec 0 r then 1 else if Rlt_dec r 0 then -1 else 0)
  | PInf => Num 1 | NInf => Num (-1) | NaN => NaN
  end.

(** [np.sign(x) * np.sign(y) > 0.0] *)
Definition same_strict_sign (x y : fl) : bool :=
  match fsign x, fsign y with Num a, Num b => Rltb 0 (a * b) | _, _ => false end.

(** How the caller spells the expectation type (utils.py L8-58): a member, a string or a bool. *)
Inductive etype := Apriori | Aposteriori | Observed.
Inductive pyexp := Member (e : etype) | Str (s : string) | PyBool (b : bool).

(** [expected is ExpectationType.observed] *)
Definition is_observed (e : pyexp) : bool := match e with Member Observed => true | _ => false end.

(** [expected == ExpectationType.observed] (ExpectationType.__eq__, utils.py L41-56) *)
Definition eq_observed (e : pyexp) : bool :=
  match e with
  | Member Observed => true
  | Member _ => false
  | Str s => String.eqb s "observed"
  | PyBool b => negb b
  end.

Section Solver.
Variable cdf : fl -> fl.
Variable pct : list fl -> fl -> fl.
(** scipy.optimize.toms748(f, a, b): a root or an exception. *)
Variable toms748 : pyfun -> R -> R -> R + lim_err.

(** upper_limits.py L180-200: the function whose root is the limit. *)
Definition computer (maximum_likelihood : fl * fl) (logpdf : fl -> fl) (maximum_asimov_likelihood : fl * fl)
    (asimov_logpdf : fl -> fl) (expected : pyexp) (confidence_level : R) (test_stat : string)
    (pvalue_idx : nat) : pyfun := fun poi_test =>
  let pvalue :=
    match compute_teststatistics (Num poi_test) maximum_likelihood logpdf maximum_asimov_likelihood asimov_logpdf test_stat with
    | inl (_, sqrt_qmuA, delta) =>
        let '(pv, epv) := compute_asymptotic_confidence_level cdf pct sqrt_qmuA delta test_stat in
        inl (map (fun x => fsub (Num 1) x) (if eq_observed expected then pv else epv))
    | inr AsimovTestStatZero => inl (if eq_observed expected then [zero] else repeat zero 5)
    | inr e => inr (UncaughtStat e)
    end in
  match pvalue with
  | inr e => inr e
  | inl l => match nth_error l pvalue_idx with
             | Some x => inl (fsub x (Num confidence_level))
             | None => inr IndexError
             end
  end.

(** upper_limits.py L208-244, one index: +infinity or a root. *)
Definition limit_for (fuel : nat) (comp : pyfun) (low_init hig_init : R) : fl + lim_err :=
  match find_root_limits fuel comp 0 low_init hig_init (1 / 10 ^ 10) (10 ^ 5) with
  | inr e => inr e
  | inl ((low, flow), (hig, fhig)) =>
      if same_strict_sign flow fhig then inl PInf
      else match toms748 comp low hig with
           | inr e => inr e
           | inl x0 => inl (Num x0)
           end
  end.

Fixpoint limits (fuel : nat) (comp : nat -> pyfun) (low_init hig_init : R) (idx : list nat) : list fl + lim_err :=
  match idx with
  | [] => inl []
  | i :: r =>
      match limit_for fuel (comp i) low_init hig_init with
      | inr e => inr e
      | inl x => match limits fuel comp low_init hig_init r with inr e => inr e | inl l => inl (x :: l) end
      end
  end.

(** What is returned: one number or a list. *)
Inductive lim_res := Scalar (x : fl) | Many (l : list fl).

(** upper_limits.py L104-245 find_poi_upper_limit *)
Definition find_poi_upper_limit (fuel : nat) (maximum_likelihood : fl * fl) (logpdf : fl -> fl)
    (maximum_asimov_likelihood : fl * fl) (asimov_logpdf : fl -> fl) (expected : pyexp)
    (confidence_level : R) (allow_negative_signal : bool) (low_init hig_init : R) (expected_pvalue : string)
    : lim_res + lim_err :=
  if negb (in_strs expected_pvalue ["nominal"; "1sigma"; "2sigma"]) then inr AssertionError
  else
    let expected_pvalue := if is_observed expected then "nominal" else expected_pvalue in
    let test_stat := choose_stat allow_negative_signal in
    let comp := computer maximum_likelihood logpdf maximum_asimov_likelihood asimov_logpdf expected
                  confidence_level test_stat in
    let idx :=
      if String.eqb expected_pvalue "nominal" then [if is_observed expected then 0 else 2]%nat
      else if String.eqb expected_pvalue "1sigma" then [1; 2; 3]%nat
      else [0; 1; 2; 3; 4]%nat in
    match limits fuel comp low_init hig_init idx with
    | inr e => inr e
    | inl [x] => inl (Scalar x)
    | inl l => inl (Many l)
    end.

(** [low_init or e]: a falsy start (None or 0.0) is replaced. *)
Definition or_else (x : option R) (y : R) : R :=
  match x with Some r => if Req_EM_T r 0 then y else r | None => y end.

(** hypotest_base.py L1277-1328 poi_upper_limit. [is_alive], the fits of _prepare_for_hypotest and sigma_mu are
    parameters (sigma: the value of [self.sigma_mu(muhat)], near_zero: [np.isclose(muhat, 0)]). muhat is finite here. *)
Definition poi_upper_limit (fuel : nat) (is_alive : bool) (muhat : R) (min_nll : fl) (logpdf : fl -> fl)
    (maximum_asimov_likelihood : fl * fl) (asimov_logpdf : fl -> fl) (sigma : R) (near_zero : bool)
    (expected : pyexp) (confidence_level : R) (low_init hig_init : option R) (expected_pvalue : string)
    : lim_res + lim_err :=
  if negb (andb (Rleb 0 confidence_level) (Rleb confidence_level 1)) then inr AssertionError
  else
    let expected_pvalue := if eq_observed expected then "nominal" else expected_pvalue in
    if negb is_alive then
      if String.eqb expected_pvalue "nominal" then inl (Scalar PInf)
      else if String.eqb expected_pvalue "1sigma" then inl (Many (repeat PInf 3))
      else if String.eqb expected_pvalue "2sigma" then inl (Many (repeat PInf 5))
      else inr KeyError
    else
      let m := if Rltb 0 muhat then muhat else 0 in
      let s := if near_zero then 1 else sigma in
      let '(lo, hi) :=
        match low_init, hig_init with
        | Some l, Some h => (l, h)
        | _, _ => (Rmax (or_else low_init (m + (15 / 10) * s)) (1 / 10 ^ 10),
                   Rmax (or_else hig_init (m + (25 / 10) * s)) (1 / 10 ^ 10))
        end in
      find_poi_upper_limit fuel (Num muhat, min_nll) logpdf maximum_asimov_likelihood asimov_logpdf expected
        confidence_level false lo hi expected_pvalue.

(** upper_limits.py L325-326 / L329-330 / L340-341: the walking loops of bracket_and_solve. *)
Fixpoint walk (fuel : nat) (f : pyfun) (go_on : fl -> bool) (stop : R -> bool) (next : R -> R) (x : R)
    : (R * fl) + lim_err :=
  match fuel with
  | O => inr OutOfFuel
  | S n =>
      match f x with
      | inr e => inr e
      | inl v => if andb (go_on v) (negb (stop x)) then walk n f go_on stop next (next x) else inl (x, v)
      end
  end.

(** [np.sign(x) == np.sign(y)] *)
Definition sign_eq (x y : fl) : bool := feqb (fsign x) (fsign y).

(** upper_limits.py L324-361 bracket_and_solve: (inner, outer, root), root NaN without a bracket. *)
Definition bracket_and_solve (fuel : nat) (f : pyfun) (inner outer : R) (expand contract : R -> R)
    (outer_stop inner_stop : R -> bool) (retry : option (R * (R -> bool))) : (R * R * fl) + lim_err :=
  match walk fuel f (fun v => fltb v zero) outer_stop expand outer with
  | inr e => inr e
  | inl (outer, fo) =>
      match walk fuel f (fun v => fgtb v zero) inner_stop contract inner with
      | inr e => inr e
      | inl (inner, fi) =>
          let second :=
            match retry with
            | Some (retry_inner, retry_stop) =>
                if sign_eq fi fo
                then walk fuel f (fun v => fgtb v zero) retry_stop contract retry_inner
                else inl (inner, fi)
            | None => inl (inner, fi)
            end in
          match second with
          | inr e => inr e
          | inl (inner, fi) =>
              if negb (sign_eq fi fo) then
                match toms748 f (Rmin inner outer) (Rmax inner outer) with
                | inr e => inr e
                | inl x0 => inl (inner, outer, Num x0)
                end
              else inl (inner, outer, NaN)
          end
      end
  end.

End Solver.
