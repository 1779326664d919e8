(** Model of default.poisson with absolute_uncertainties (src/spey/backends/default_pdf/simple_pdf.py, class Poisson): what its fits
    minimise and what it expects. Its yields and its constraint are [poisson_unc_lam] and [poisson_unc_constraint]. *)
From Coq Require Import List Reals.
From Verif Require Import HelperModel DistModel DefaultModel.
Import ListNotations.
Local Open Scope R_scope.

(** get_objective_function (L328-378) with the main model of L595 *)
Definition free_objective (gammaln : R -> R) (inv : mat -> mat) (logdet : mat -> R) (s background sigma obs : vec) (e : expectation) (data : option vec) (pars : vec) : res R :=
  bind (poisson_unc_lam s background sigma pars) (fun l =>
  bind (main_log_prob gammaln inv logdet (MPoisson (fun _ => l)) pars (match data with Some d => d | None => match e with ExpApriori => background | _ => obs end end)) (fun x => Ok (- x))).
(** expected_data (L500-512) *)
Definition free_expected (s background sigma pars : vec) : res vec :=
  bind (poisson_unc_lam s background sigma pars) (fun l => Ok (main_expected (MPoisson (fun _ => l)) pars)).
