(** Model of optimizer/minuit_tools.py and of fit (optimizer/core.py) with either driver, from the options to the log. *)
From Coq Require Import String List Reals Bool ZArith Arith.
From Verif Require Import Fl ConfigModel FitModel.
Import ListNotations.
Local Open Scope R_scope.
Local Open Scope list_scope.

(** values of options *)
Inductive optval := OText (s : string) | ONum (r : R) | OInt (z : Z) | OBool (b : bool).
Definition opts := list (string * optval).

(** The objective: func(pars) is a number, or a pair of number and gradient when do_grad is set (minuit_tools.py L71-76). *)
Definition objective_fn := list fl -> fl * list fl.

(** minuit_tools.py L78-84: what the Minuit object is told *)
Record minuit := MinuitObj {
  mn_values : list fl;
  mn_limits : list bound;
  mn_fixed : list bool;
  mn_print : optval;
  mn_errordef : optval;
  mn_strategy : optval;
  mn_tol : optval;
  mn_gradient : bool }.
Inductive algorithm := Migrad | Simplex.
(** what it answers (L94-118) *)
Record mn_answer := MnAnswer { mn_valid : bool; mn_accurate : bool; mn_call_limit : bool; mn_above_edm : bool; mn_fval : fl; mn_x : list fl }.

Inductive engine_err := BadOptions (e : opt_err) | BadConfig (e : cfg_err) | BadFit (e : fit_err) | BadTrials.

(** options.get(k, default) *)
Definition get_or (k : string) (v : optval) (d : opts) : optval := match lookup k d with Some x => x | None => v end.

(** L101-108: the text of the warning *)
Definition minuit_message (a : mn_answer) : list string :=
  if mn_valid a then []
  else [("Optimization failed." ++ (if mn_call_limit a then " Call limit was reached." else "")
         ++ (if mn_above_edm a then " Estimated distance to minimum too large." else ""))%string].

(** minuit_tools.py minimize (L68-118). Minuit.LIKELIHOOD is 0.5. Constraints and hessian are accepted and not used. bounds is always a
    list here, because fit always passes one. *)
Definition minuit_minimize (run_minuit : algorithm -> (list fl -> fl) -> minuit -> optval -> mn_answer)
    (func : objective_fn) (start : list fl) (mask : list bool) (do_grad : bool) (bounds : list bound) (constraints : list constr) (o : opts)
    : (fl * list fl * list string) + engine_err :=
  match validate minuit_rules o with
  | inr e => inr (BadOptions e)
  | inl d =>
      let told := MinuitObj start bounds mask (get_or "disp" (OInt 0) d) (get_or "errordef" (ONum (1 / 2)) d) (get_or "strategy" (OInt 0) d)
                    (get_or "tol" (ONum (1 / 10 ^ 6)) d) do_grad in
      let go alg := let a := run_minuit alg (fun p => fst (func p)) told (get_or "maxiter" (OInt 10000) d) in inl (mn_fval a, mn_x a, minuit_message a) in
      match get_or "method" (OText "migrad") d with
      | OText m => if String.eqb m "migrad" then go Migrad else if String.eqb m "simplex" then go Simplex else inr (BadOptions OptValueError)
      | _ => inr (BadOptions OptValueError)
      end
  end.

(** scipy_tools.py minimize (L65-138) on the lists fit made; the log gets two warnings for every attempt that failed (L119-120, L131-132).
    Simplification: ntrials is an integer. *)
Definition scipy_t := optval -> optval -> opts -> (list fl -> fl) -> list run -> run -> outcome.
Definition scipy_warnings (ans : list run -> run -> outcome) (runs : list run) : list string :=
  flat_map (fun i => match nth_error runs i with
                     | Some r => if o_success (ans (firstn i runs) r) then [] else ["Optimiser has not been able to satisfy all the conditions:"; "message"]%string
                     | None => [] end) (seq 0 (List.length runs)).
Definition scipy_drive (scipy : scipy_t) (func : objective_fn) (start : list fl) (mask : list bool) (bounds : list bound) (constraints : list constr) (o : opts)
    : (fl * list fl * list string) + engine_err :=
  match scipy_options (OText "SLSQP") (ONum (1 / 10 ^ 6)) (OInt 1) (OInt 10000) (OBool false) o with
  | inr e => inr (BadOptions e)
  | inl (method, tol, OInt ntrials, OInt poi, rest) =>
      let ans := scipy method tol rest (fun p => fst (func p)) in
      match scipy_minimize ans [CInit start; CBounds bounds; CCons constraints] 0%nat (Some 1%nat) (Some 2%nat) mask ntrials poi with
      | (_, runs, inl out) => inl (o_fun out, o_x out, scipy_warnings ans runs)
      | (_, _, inr e) => inr (BadConfig e)
      end
  | inl _ => inr BadTrials
  end.

(** core.py L105-128: the minimizer option is taken out, poi_index put in *)
Definition minimizer_option (o : opts) : option string := match lookup "minimizer" o with Some (OText s) => Some s | Some _ => Some ""%string | None => None end.
Definition engine_options (o : opts) (poi : nat) : opts :=
  filter (fun kv => negb (String.eqb (fst kv) "minimizer") && negb (String.eqb (fst kv) "poi_index")) o ++ [("poi_index"%string, OInt (Z.of_nat poi))].

Record environment := Environment { env_optimiser : option string; env_iminuit : bool }.

(** core.py fit (L92-141); the result carries the warnings that reached the log *)
Definition fit_full (scipy : scipy_t) (run_minuit : algorithm -> (list fl -> fl) -> minuit -> optval -> mn_answer) (env : environment)
    (func : objective_fn) (do_grad : bool) (logpdf : option (list fl -> fl)) (constraints : list constr)
    (h : heap) (sugg : addr) (c : config) (initial : init_arg) (bounds : option (list bound)) (fixed : fixed_arg) (o : opts)
    : (fl * list fl * list string) + engine_err :=
  let e := choose_engine (minimizer_option o) (env_optimiser env) (env_iminuit env) in
  match prepare h sugg c (FitArgs initial bounds fixed e) with
  | (_, inr err) => inr (BadFit err)
  | (_, inl call) =>
      let o' := engine_options o (poi_index c) in
      match (match h_engine call with
             | Minuit => minuit_minimize run_minuit func (h_start call) (h_mask call) do_grad (h_bounds call) constraints o'
             | Scipy => scipy_drive scipy func (h_start call) (h_mask call) (h_bounds call) constraints o'
             end) with
      | inr err => inr err
      | inl (v, x, log) => inl (match logpdf with None => v | Some g => g x end, x, log)
      end
  end.
